(** * SpecLines: pixel lags (C54), line lists (C55), features (C56) *)
From Coq Require Import List Bool Reals Lra Lia ZArith String Sorted Permutation Arith.
From Verif Require Import PyBase CosmoDistModel PhotModel SpecModel SpecProps SpecObj SpecLineModel.
Import ListNotations.
Open Scope R_scope.

(** ** C54 *)
(** *** Specification: pixels whose partner [i + l] exists have the ratio of both positions minus one *)
Definition partner (x : list R) (l : Z) (i : nat) : option nat := let j := (Z.of_nat i + l)%Z in if ((0 <=? j) && (j <? Z.of_nat (List.length x)))%Z then Some (Z.to_nat j) else None.
Definition good_pixels (x : list R) (l : Z) : list nat := filter (fun i => match partner x l i with Some _ => true | None => false end) (seq 0 (List.length x)).
Definition shift_z (x : list R) (l : Z) (i : nat) : R := match partner x l i with Some j => nth j x 0 / nth i x 0 - 1 | None => 0 end.
Definition average (l : list R) : R := fold_right Rplus 0 l / INR (List.length l).
Lemma zbase_good x l i j : partner x l i = Some j -> zbase x l i = nth j x 0 / nth i x 0 - 1.
Proof.
  unfold partner, zbase. cbv zeta. destruct ((0 <=? Z.of_nat i + l) && (Z.of_nat i + l <? Z.of_nat (List.length x)))%Z eqn:E; [|discriminate]. intros [= <-]. apply andb_true_iff in E. destruct E as (E1 & E2). apply Z.leb_le in E1. apply Z.ltb_lt in E2. now rewrite Z.mod_small by lia.
Qed.
Lemma filter_seq_lt stop n : (stop <= n)%nat -> filter (fun i => Nat.ltb i stop) (seq 0 n) = seq 0 stop.
Proof.
  intros L. replace n with (stop + (n - stop))%nat by lia. rewrite seq_app, filter_app. cbn [Nat.add]. assert (filter (fun i => Nat.ltb i stop) (seq 0 stop) = seq 0 stop) as ->.
  { assert (forall l : list nat, (forall i, In i l -> (i < stop)%nat) -> filter (fun i => Nat.ltb i stop) l = l) as K. { induction l as [|a l IH]; intros H; cbn [filter]; [reflexivity|]. rewrite (proj2 (Nat.ltb_lt a stop)) by (apply H; now left). f_equal. apply IH. intros; apply H; now right. }
    apply K. intros i Hi. apply in_seq in Hi. lia. }
  assert (forall l : list nat, (forall i, In i l -> (stop <= i)%nat) -> filter (fun i => Nat.ltb i stop) l = []) as K. { induction l as [|a l IH]; intros H; cbn [filter]; [reflexivity|]. rewrite (proj2 (Nat.ltb_ge a stop)) by (apply H; now left). apply IH. intros; apply H; now right. }
  rewrite K; [apply app_nil_r|]. intros i Hi. apply in_seq in Hi. lia.
Qed.
Lemma filter_seq_ge m n : (m <= n)%nat -> filter (fun i => negb (Nat.ltb i m)) (seq 0 n) = seq m (n - m).
Proof.
  intros L. replace n with (m + (n - m))%nat at 1 by lia. rewrite seq_app, filter_app. cbn [Nat.add]. assert (filter (fun i => negb (Nat.ltb i m)) (seq 0 m) = []) as ->.
  { assert (forall l : list nat, (forall i, In i l -> (i < m)%nat) -> filter (fun i => negb (Nat.ltb i m)) l = []) as K. { induction l as [|a l IH]; intros H; cbn [filter]; [reflexivity|]. rewrite (proj2 (Nat.ltb_lt a m)) by (apply H; now left). cbn [negb]. apply IH. intros; apply H; now right. }
    apply K. intros i Hi. apply in_seq in Hi. lia. }
  assert (forall l : list nat, (forall i, In i l -> (m <= i)%nat) -> filter (fun i => negb (Nat.ltb i m)) l = l) as K. { induction l as [|a l IH]; intros H; cbn [filter]; [reflexivity|]. rewrite (proj2 (Nat.ltb_ge a m)) by (apply H; now left). cbn [negb]. f_equal. apply IH. intros; apply H; now right. }
  apply K. intros i Hi. apply in_seq in Hi. lia.
Qed.
Lemma nth_map_seq {B} (g : nat -> B) n i d : (i < n)%nat -> nth i (map g (seq 0 n)) d = g i.
Proof. intros Hi. rewrite (nth_indep _ d (g O)) by (rewrite map_length, seq_length; auto). rewrite map_nth, seq_nth by auto. reflexivity. Qed.
Lemma mean_average l : l <> [] -> mean l = Some (average l). Proof. destruct l; [congruence|reflexivity]. Qed.
Theorem C54_pixels : forall avgbad x l i, l <> 0%Z -> (Z.abs l < Z.of_nat (List.length x))%Z -> (i < List.length x)%nat -> List.length (lag_to_z avgbad x l) = List.length x /\
  nth i (lag_to_z avgbad x l) None = match partner x l i with Some _ => Some (shift_z x l i) | None => Some (if avgbad then average (map (shift_z x l) (good_pixels x l)) else 0) end.
Proof.
  intros avgbad x l i Nz Hl Hi. set (n := List.length x) in *. unfold lag_to_z. fold n.
  assert (forall k, (k < n)%nat -> partner x l k <> None <-> (0 <= Z.of_nat k + l < Z.of_nat n)%Z) as Pk.
  { intros k Hk. unfold partner. cbv zeta. fold n. destruct ((0 <=? Z.of_nat k + l) && (Z.of_nat k + l <? Z.of_nat n))%Z eqn:E; [apply andb_true_iff in E; destruct E as (E1 & E2); apply Z.leb_le in E1; apply Z.ltb_lt in E2|apply andb_false_iff in E; destruct E as [E|E]; [apply Z.leb_gt in E|apply Z.ltb_ge in E]]; split; try congruence; try lia. }
  assert (forall is, (forall k, In k is -> partner x l k <> None) -> map (zbase x l) is = map (shift_z x l) is) as Mp.
  { intros is Hk. apply map_ext_in. intros k Hin. specialize (Hk k Hin). unfold shift_z. destruct (partner x l k) as [j|] eqn:E; [|congruence]. now apply zbase_good. }
  assert (partner x l i <> None -> Some (zbase x l i) = Some (shift_z x l i)) as One by (intros H; unfold shift_z; destruct (partner x l i) as [j|] eqn:E; [|congruence]; now rewrite (zbase_good x l i j)).
  destruct (Z.leb_spec 0 l) as [Pl|Pl].
  - destruct (Z.eqb_spec l 0) as [|_]; [congruence|]. set (stop := (n - Z.to_nat l)%nat). split; [now rewrite map_length, seq_length|]. rewrite nth_map_seq by auto.
    assert (forall k, (k < n)%nat -> partner x l k <> None <-> (k < stop)%nat) as Ps by (intros k Hk; rewrite (Pk k Hk); unfold stop; lia).
    assert (good_pixels x l = seq 0 stop) as Gp.
    { rewrite <- (filter_seq_lt stop n) by (unfold stop; lia). unfold good_pixels. fold n. apply filter_ext_in. intros k Hk. apply in_seq in Hk. destruct (partner x l k) eqn:E; symmetry; [apply Nat.ltb_lt, Ps; [lia|congruence]|apply Nat.ltb_ge]. destruct (le_lt_dec stop k); auto. exfalso. apply Ps in l0; [congruence|lia]. }
    destruct (Nat.ltb_spec i stop) as [Li|Li].
    + assert (partner x l i <> None) as Hp by (apply Ps; auto). rewrite One by auto. destruct (partner x l i); congruence.
    + assert (partner x l i = None) as -> by (destruct (partner x l i) eqn:E; auto; exfalso; assert (i < stop)%nat by (apply Ps; [auto|congruence]); lia). destruct avgbad; [|reflexivity].
      rewrite Gp. rewrite Mp by (intros k Hk; apply in_seq in Hk; apply Ps; [unfold stop in *; lia|lia]). apply mean_average. unfold stop. destruct (n - Z.to_nat l)%nat eqn:E; [lia|discriminate].
  - set (m := Z.to_nat (- l)). split; [now rewrite map_length, seq_length|]. rewrite nth_map_seq by auto.
    assert (forall k, (k < n)%nat -> partner x l k <> None <-> (m <= k)%nat) as Ps by (intros k Hk; rewrite (Pk k Hk); unfold m; lia).
    assert (good_pixels x l = seq m (n - m)) as Gp.
    { rewrite <- (filter_seq_ge m n) by (unfold m; lia). unfold good_pixels. fold n. apply filter_ext_in. intros k Hk. apply in_seq in Hk. destruct (Nat.ltb_spec k m) as [Lk|Lk]; cbn [negb]; destruct (partner x l k) eqn:E; auto; exfalso.
      - assert (m <= k)%nat by (apply Ps; [lia|congruence]). lia.
      - assert (partner x l k <> None) by (apply Ps; [lia|auto]). congruence. }
    destruct (Nat.ltb_spec i m) as [Li|Li].
    + assert (partner x l i = None) as -> by (destruct (partner x l i) eqn:E; auto; exfalso; assert (m <= i)%nat by (apply Ps; [auto|congruence]); lia). destruct avgbad; [|reflexivity].
      rewrite Gp. rewrite Mp by (intros k Hk; apply in_seq in Hk; apply Ps; lia). apply mean_average. destruct (n - m)%nat eqn:E; [unfold m in *; lia|discriminate].
    + assert (partner x l i <> None) as Hp by (apply Ps; auto). rewrite One by auto. destruct (partner x l i); congruence.
Qed.
(** on a logarithmic axis a lag of [l] pixels is the same redshift everywhere *)
Lemma average_const v (l : list R) : l <> [] -> (forall y, In y l -> y = v) -> average l = v.
Proof.
  intros N H. unfold average. assert (fold_right Rplus 0 l = INR (List.length l) * v) as ->.
  { clear N. induction l as [|a l IH]; [cbn; ring|]. cbn [fold_right]. rewrite IH by (intros; apply H; now right). rewrite (H a) by now left. cbn [List.length]. rewrite S_INR. ring. }
  field. destruct l; [congruence|]. apply not_0_INR. discriminate.
Qed.
Theorem C54_logarithmic : forall x x0 r l, 0 < r -> x0 <> 0 -> (forall i, (i < List.length x)%nat -> nth i x 0 = x0 * powerRZ r (Z.of_nat i)) -> l <> 0%Z -> (Z.abs l < Z.of_nat (List.length x))%Z ->
  lag_to_z true x l = repeat (Some (powerRZ r l - 1)) (List.length x).
Proof.
  intros x x0 r l Hr Hx X Nz Hl. assert (forall i, (i < List.length x)%nat -> partner x l i <> None -> shift_z x l i = powerRZ r l - 1) as K.
  { intros i Hi Hp. unfold shift_z, partner in *. cbv zeta in *. destruct ((0 <=? Z.of_nat i + l) && (Z.of_nat i + l <? Z.of_nat (List.length x)))%Z eqn:E; [|congruence]. apply andb_true_iff in E. destruct E as (E1 & E2). apply Z.leb_le in E1. apply Z.ltb_lt in E2.
    rewrite !X by lia. rewrite Z2Nat.id by lia. rewrite powerRZ_add by lra. field. split; [|auto]. apply powerRZ_NOR. lra. }
  assert (List.length (lag_to_z true x l) = List.length x) as Ln by (apply (C54_pixels true x l 0 Nz Hl); lia).
  apply (nth_ext _ _ None None); [now rewrite repeat_length|]. intros i Hi. rewrite Ln in Hi. rewrite (nth_indep (repeat _ _) None (Some (powerRZ r l - 1))) by now rewrite repeat_length. rewrite nth_repeat. rewrite (proj2 (C54_pixels true x l i Nz Hl Hi)).
  destruct (partner x l i) eqn:E; [rewrite K by (auto; congruence); reflexivity|]. f_equal. apply average_const.
  - intros Q. apply map_eq_nil in Q. assert (exists k, In k (good_pixels x l)) as (k & Hk); [|rewrite Q in Hk; destruct Hk]. exists (if (0 <=? l)%Z then O else (List.length x - 1)%nat). apply filter_In. split; [apply in_seq; destruct (0 <=? l)%Z; lia|].
    unfold partner. cbv zeta. destruct (Z.leb_spec 0 l); rewrite (proj2 (Z.leb_le 0 _)) by lia; rewrite (proj2 (Z.ltb_lt _ _)) by lia; reflexivity.
  - intros y Hy. apply in_map_iff in Hy. destruct Hy as (k & <- & Hk). apply filter_In in Hk. destruct Hk as (Hk & Hp). apply in_seq in Hk. apply K; [lia|]. destruct (partner x l k); congruence.
Qed.
(** but lag zero (which zfind tries first) gives nan in every pixel instead of redshift zero; without averaging it is right *)
Theorem C54_zero_refuted : forall x, lag_to_z true x 0 = repeat None (List.length x) /\ lag_to_z false x 0 = repeat (Some 0) (List.length x).
Proof.
  intros x. assert (forall (a : option R) k n, map (fun i => if Nat.ltb i 0 then Some (zbase x 0 i) else a) (seq k n) = repeat a n) as K.
  { intros a k n. revert k. induction n as [|n IH]; intros k; cbn [seq map repeat]; [reflexivity|]. now rewrite IH. }
  split; apply K.
Qed.

(** ** C55 *)
Lemma near_true tol a b : near tol a b = true <-> Rabs (a - b) <= tol.
Proof. unfold near. destruct (Rle_dec (Rabs (a - b)) tol); split; auto; try discriminate; contradiction. Qed.
Lemma near_false tol a b : near tol a b = false <-> tol < Rabs (a - b).
Proof. unfold near. destruct (Rle_dec (Rabs (a - b)) tol); split; auto; try discriminate; lra. Qed.
Lemma near0 a b : near 0 a b = true <-> a = b.
Proof. rewrite near_true. split; [intros H; pose proof (Rabs_pos (a - b)); destruct (Req_dec (a - b) 0) as [E|E]; [lra|]; apply Rabs_pos_lt in E; lra|intros ->; rewrite Rminus_diag_eq by auto; rewrite Rabs_R0; lra]. Qed.
Lemma in_dups tol locs i j : In j (dups_of tol locs i) <-> (j < List.length locs)%nat /\ Rabs (nth j locs 0 - nth i locs 0) <= tol.
Proof. unfold dups_of. rewrite filter_In, in_seq, near_true. intuition lia. Qed.
Lemma dups_nodup tol locs i : NoDup (dups_of tol locs i). Proof. apply NoDup_filter, seq_NoDup. Qed.
Lemma two_elems (l : list nat) a b : In a l -> In b l -> a <> b -> (1 < List.length l)%nat.
Proof. destruct l as [|x [|y l]]; cbn [In List.length]; intros; try lia; intuition congruence. Qed.
Lemma nodup_two (l : list nat) : NoDup l -> (1 < List.length l)%nat -> exists a b, In a l /\ In b l /\ a <> b.
Proof. destruct l as [|x [|y l]]; cbn [List.length]; intros N L; try lia. exists x, y. inversion N as [|? ? H _]; subst. cbn [In] in *. intuition congruence. Qed.
Lemma existsb_nat i l : existsb (Nat.eqb i) l = true <-> In i l.
Proof. rewrite existsb_exists. split; [intros (j & H & E); apply Nat.eqb_eq in E; now subst|intros H; exists i; split; [auto|apply Nat.eqb_refl]]. Qed.
Lemma insert_key_perm {B} (key : B -> R) a l : Permutation (insert_key key a l) (a :: l).
Proof. induction l as [|b l IH]; cbn [insert_key]; [reflexivity|]. destruct (Rle_dec (key a) (key b)); [reflexivity|]. rewrite IH. constructor. Qed.
Lemma sort_key_perm {B} (key : B -> R) l : Permutation (sort_key key l) l.
Proof. unfold sort_key. induction l as [|a l IH]; cbn [fold_right]; [reflexivity|]. rewrite insert_key_perm. now constructor. Qed.
Lemma sort_key_sorted {B} (key : B -> R) l : StronglySorted (fun a b => key a <= key b) (sort_key key l).
Proof.
  unfold sort_key. induction l as [|a l IH]; cbn [fold_right]; [constructor|]. generalize dependent (fold_right (insert_key key) [] l). clear l. intros l S. induction S as [|b l S IH F]; cbn [insert_key]; [constructor; constructor|].
  destruct (Rle_dec (key a) (key b)) as [L|L].
  - constructor; [constructor; auto|]. constructor; [exact L|]. rewrite Forall_forall in *. intros q Hq. specialize (F q Hq). lra.
  - constructor; [exact IH|]. rewrite Forall_forall in *. intros q Hq. apply (Permutation_in _ (insert_key_perm key a l)) in Hq. destruct Hq as [<-|Hq]; [lra|auto].
Qed.
Lemma insert_desc_perm i l : Permutation (insert_desc i l) (i :: l).
Proof. induction l as [|j l IH]; cbn [insert_desc]; [reflexivity|]. destruct (Nat.ltb i j); [|reflexivity]. rewrite IH. constructor. Qed.
Lemma sort_desc_perm l : Permutation (sort_desc l) l.
Proof. unfold sort_desc. induction l as [|a l IH]; cbn [fold_right]; [reflexivity|]. rewrite insert_desc_perm. now constructor. Qed.
Lemma sort_desc_sorted l : NoDup l -> StronglySorted (fun a b => b < a)%nat (sort_desc l).
Proof.
  intros N. assert (StronglySorted (fun a b => b <= a)%nat (sort_desc l)) as S.
  { unfold sort_desc. clear N. induction l as [|a l IH]; cbn [fold_right]; [constructor|]. generalize dependent (fold_right insert_desc [] l). clear l. intros l S. induction S as [|b l S IH F]; cbn [insert_desc]; [constructor; constructor|].
    destruct (Nat.ltb_spec a b) as [L|L].
    - constructor; [exact IH|]. rewrite Forall_forall in *. intros q Hq. apply (Permutation_in _ (insert_desc_perm a l)) in Hq. destruct Hq as [<-|Hq]; [lia|auto].
    - constructor; [constructor; auto|]. constructor; [exact L|]. rewrite Forall_forall in *. intros q Hq. specialize (F q Hq). lia. }
  assert (NoDup (sort_desc l)) as Nd by (eapply Permutation_NoDup; [apply Permutation_sym, sort_desc_perm|auto]). induction S as [|a q S IH F]; constructor.
  - inversion Nd; auto.
  - inversion Nd as [|? ? Na Nq]; subst. rewrite Forall_forall in *. intros b Hb. specialize (F b Hb). assert (a <> b) by congruence. lia.
Qed.
(** labelled lists *)
Definition lab {B} (k : nat) (l : list B) : list (nat * B) := combine (seq k (List.length l)) l.
Definition out (T : list nat) {B} (p : nat * B) : bool := negb (existsb (Nat.eqb (fst p)) T).
Definition kept {B} (k : nat) (T : list nat) (l : list B) : list B := map snd (filter (out T) (lab k l)).
Lemma lab_snd {B} k (l : list B) : map snd (lab k l) = l.
Proof. unfold lab. revert k. induction l as [|a l IH]; intros k; cbn [List.length seq combine map snd]; [reflexivity|]. now rewrite IH. Qed.
Lemma lab_in {B} k (l : list B) p d : In p (lab k l) -> (k <= fst p < k + List.length l)%nat /\ snd p = nth (fst p - k) l d.
Proof.
  unfold lab. revert k. induction l as [|a l IH]; intros k; cbn [List.length seq combine In]; [contradiction|]. intros [<-|H].
  - cbn [fst snd]. rewrite Nat.sub_diag. split; [lia|reflexivity].
  - destruct (IH (S k) H) as (A & E). split; [lia|]. rewrite E. replace (fst p - k)%nat with (S (fst p - S k)) by lia. reflexivity.
Qed.
Lemma in_lab {B} k (l : list B) i d : (i < List.length l)%nat -> In (k + i, nth i l d)%nat (lab k l).
Proof.
  unfold lab. revert k i. induction l as [|a l IH]; intros k i Hi; cbn [List.length] in Hi; [lia|]. cbn [List.length seq combine In]. destruct i as [|i]; [left; rewrite Nat.add_0_r; reflexivity|]. right. replace (k + S i)%nat with (S k + i)%nat by lia. apply IH. lia.
Qed.
Lemma lab_nodup {B} k (l : list B) : NoDup (lab k l).
Proof.
  unfold lab. revert k. induction l as [|a l IH]; intros k; cbn [List.length seq combine]; constructor; [|apply IH]. intros H. apply in_combine_l in H. apply in_seq in H. lia.
Qed.
Lemma kept_all {B} k T (l : list B) : (forall i, In i T -> (i < k)%nat) -> kept k T l = l.
Proof.
  intros H. unfold kept. rewrite <- (lab_snd k l) at 2. f_equal. assert (forall q, (forall p, In p q -> In p (lab k l)) -> filter (@out T B) q = q) as K; [|apply K; auto].
  induction q as [|p q IH]; intros Hq; cbn [filter]; [reflexivity|]. assert (out T p = true) as ->; [|f_equal; apply IH; intros; apply Hq; now right]. unfold out. destruct (existsb (Nat.eqb (fst p)) T) eqn:E; [|reflexivity]. apply existsb_nat, H in E. assert (In p (lab k l)) as Hp by (apply Hq; now left). destruct (lab_in k l p (snd p) Hp). lia.
Qed.
Lemma kept_del {B} k i T (l : list B) : (k <= i < k + List.length l)%nat -> (forall j, In j T -> (j < i)%nat) -> kept k (i :: T) l = kept k T (del_nth (i - k) l).
Proof.
  revert k. induction l as [|a l IH]; intros k Hi HT; cbn [List.length] in Hi; [lia|]. destruct (Nat.eq_dec i k) as [->|N].
  - rewrite Nat.sub_diag. cbn [del_nth]. rewrite (kept_all k T l) by auto. change (kept k (k :: T) (a :: l)) with (map snd (filter (out (k :: T)) ((k, a) :: lab (S k) l))). cbn [filter]. unfold out at 1. cbn [fst existsb]. rewrite Nat.eqb_refl. cbn [orb negb]. change (kept (S k) (k :: T) l = l). apply kept_all. intros j [->|Hj]; [lia|]. specialize (HT j Hj). lia.
  - replace (i - k)%nat with (S (i - S k)) by lia. cbn [del_nth]. change (kept k (i :: T) (a :: l)) with (map snd (filter (out (i :: T)) ((k, a) :: lab (S k) l))). change (kept k T (a :: del_nth (i - S k) l)) with (map snd (filter (out T) ((k, a) :: lab (S k) (del_nth (i - S k) l)))). cbn [filter].
    assert (out (i :: T) (k, a) = out T (k, a)) as -> by (unfold out; cbn [fst existsb]; rewrite (proj2 (Nat.eqb_neq k i)) by auto; reflexivity).
    specialize (IH (S k) ltac:(lia) HT). unfold kept in IH. destruct (out T (k, a)); cbn [map snd]; now rewrite IH.
Qed.
Lemma del_nth_length {B} i (l : list B) : (i < List.length l)%nat -> List.length (del_nth i l) = (List.length l - 1)%nat.
Proof. revert i. induction l as [|a l IH]; intros [|i] Hi; cbn [List.length del_nth] in *; try lia. rewrite IH by lia. lia. Qed.
Lemma delete_all_kept {B} is (l : list B) : StronglySorted (fun a b => b < a)%nat is -> (forall i, In i is -> (i < List.length l)%nat) -> delete_all is l = Ok (kept 0 is l).
Proof.
  intros S. revert l. induction S as [|i is S IH F]; intros l H; cbn [delete_all]; [now rewrite kept_all|]. assert (i < List.length l)%nat as Hi by (apply H; now left). rewrite (proj2 (Nat.ltb_lt _ _)) by auto. rewrite Forall_forall in F.
  rewrite IH by (intros j Hj; rewrite del_nth_length by auto; specialize (F j Hj); lia). f_equal. symmetry. rewrite kept_del by (try lia; auto). now rewrite Nat.sub_0_r.
Qed.
Lemma kept_perm_set {B} k T T' (l : list B) : (forall i, In i T <-> In i T') -> kept k T l = kept k T' l.
Proof.
  intros H. unfold kept. f_equal. apply filter_ext. intros p. unfold out. f_equal. destruct (existsb (Nat.eqb (fst p)) T) eqn:E1, (existsb (Nat.eqb (fst p)) T') eqn:E2; auto; exfalso.
  - apply existsb_nat, H, existsb_nat in E1. congruence.
  - apply existsb_nat, H, existsb_nat in E2. congruence.
Qed.
Lemma nodup_map_filter {A B} (f : A -> B) (P : A -> bool) (l : list A) : NoDup l -> (forall p q, In p l -> In q l -> P p = true -> P q = true -> f p = f q -> p = q) -> NoDup (map f (filter P l)).
Proof.
  intros N. induction N as [|a l Na N IH]; intros H; cbn [filter]; [constructor|]. assert (NoDup (map f (filter P l))) as Nd by (apply IH; intros; apply H; auto; now right). destruct (P a) eqn:Pa; [|exact Nd]. cbn [map]. constructor; [|exact Nd].
  intros Hin. apply in_map_iff in Hin. destruct Hin as (b & Eb & Hb). apply filter_In in Hb. destruct Hb as (Hb & Pb). assert (a = b) as -> by (apply H; auto; [now left|now right]). contradiction.
Qed.
Lemma filter_perm {A} (P : A -> bool) l : Permutation (filter P l ++ filter (fun a => negb (P a)) l) l.
Proof. induction l as [|a l IH]; cbn [filter]; [reflexivity|]. destruct (P a); cbn [negb List.app]; [now constructor|]. rewrite <- Permutation_middle. now constructor. Qed.

Section C55.
Variable ord : list nat -> list nat.
Hypothesis ord_perm : forall l, Permutation (ord l) l.
Notation load_line_list := (load_line_list ord).
Notation dupsets := (dupsets ord).

Lemma dupsets_nil tol locs is ig : (forall i, In i is -> ~ In i ig -> (List.length (dups_of tol locs i) <= 1)%nat) -> dupsets tol locs is ig = [].
Proof.
  revert ig. induction is as [|i is IH]; intros ig H; cbn [SpecLineModel.dupsets]; [reflexivity|]. destruct (existsb (Nat.eqb i) ig) eqn:E; [apply IH; intros; apply H; auto; now right|]. cbv zeta.
  rewrite (proj2 (Nat.ltb_ge _ _)); [apply IH; intros; apply H; auto; now right|]. apply H; [now left|]. intros Q. apply existsb_nat in Q. congruence.
Qed.
Lemma dupsets_some tol locs is ig : (exists i, In i is /\ ~ In i ig /\ (1 < List.length (dups_of tol locs i))%nat) -> dupsets tol locs is ig <> [].
Proof.
  revert ig. induction is as [|i is IH]; intros ig (k & Hk & Nk & Lk); [destruct Hk|]. cbn [SpecLineModel.dupsets]. destruct (existsb (Nat.eqb i) ig) eqn:E.
  - apply IH. exists k. destruct Hk as [->|Hk]; [apply existsb_nat in E; contradiction|auto].
  - cbv zeta. destruct (Nat.ltb_spec 1 (List.length (dups_of tol locs i))) as [L|L]; [discriminate|]. apply IH. exists k. destruct Hk as [->|Hk]; [lia|auto].
Qed.
(** *** Specification: two lines are closer than the tolerance *)
Definition close_pair (tol : R) (kfs : list known) : Prop := exists i j, (i < j < List.length kfs)%nat /\ Rabs (kloc (nth i kfs (Known 0 "")) - kloc (nth j kfs (Known 0 ""))) <= tol.
Lemma nth_locs kfs i : nth i (map kloc kfs) 0 = kloc (nth i kfs (Known 0 "")).
Proof. change 0 with (kloc (Known 0 "")) at 1. apply map_nth. Qed.
Lemma dupsets_close tol kfs : 0 <= tol -> dupsets tol (map kloc kfs) (seq 0 (List.length kfs)) [] <> [] <-> close_pair tol kfs.
Proof.
  intros Ht. split.
  - intros N. assert (exists i, In i (seq 0 (List.length kfs)) /\ (1 < List.length (dups_of tol (map kloc kfs) i))%nat) as (i & Hi & Li).
    { destruct (existsb (fun i => Nat.ltb 1 (List.length (dups_of tol (map kloc kfs) i))) (seq 0 (List.length kfs))) eqn:E; [apply existsb_exists in E; destruct E as (i & Hi & Li); apply Nat.ltb_lt in Li; eauto|].
      exfalso. apply N, dupsets_nil. intros i Hi _. apply not_lt. intros Q. assert (existsb (fun i => Nat.ltb 1 (List.length (dups_of tol (map kloc kfs) i))) (seq 0 (List.length kfs)) = true); [|congruence]. apply existsb_exists. exists i. split; [auto|apply Nat.ltb_lt; lia]. }
    destruct (nodup_two _ (dups_nodup tol (map kloc kfs) i) Li) as (a & b & Ha & Hb & Nab). apply in_seq in Hi. apply in_dups in Ha. apply in_dups in Hb. rewrite map_length, !nth_locs in *.
    assert (exists j, j <> i /\ (j < List.length kfs)%nat /\ Rabs (kloc (nth j kfs (Known 0 "")) - kloc (nth i kfs (Known 0 ""))) <= tol) as (j & Nj & Lj & Dj) by (destruct (Nat.eq_dec a i); [exists b|exists a]; split; try tauto; lia).
    destruct (lt_dec i j); [exists i, j; split; [lia|]; now rewrite Rabs_minus_sym|exists j, i; split; [lia|auto]].
  - intros (i & j & Hij & D). apply dupsets_some. exists i. split; [apply in_seq; lia|]. split; [auto|]. apply (two_elems _ i j); [apply in_dups|apply in_dups|lia]; rewrite map_length, !nth_locs; split; try lia; [|now rewrite Rabs_minus_sym]. rewrite Rminus_diag_eq by auto. now rewrite Rabs_R0.
Qed.
(** a list without close pairs is returned as it is, apart from the order, whatever [ondup] *)
Theorem C55_clean : forall tol o sort kfs, 0 <= or_default tol 0 -> ~ close_pair (or_default tol 0) kfs -> exists l, load_line_list tol o sort kfs = Ok l /\ Permutation l kfs /\
  (sort = 0%Z -> l = kfs) /\ ((0 < sort)%Z -> StronglySorted (fun a b => kloc a <= kloc b) l) /\ ((sort < 0)%Z -> StronglySorted (fun a b => kloc b <= kloc a) l).
Proof.
  intros tol o sort kfs Ht N. unfold SpecLineModel.load_line_list. cbv zeta. set (ds := dupsets (or_default tol 0) (map kloc kfs) (seq 0 (List.length kfs)) []). assert (ds = []) as ->.
  { destruct ds eqn:E; [reflexivity|]. exfalso. apply N. apply dupsets_close; [auto|]. fold ds. rewrite E. discriminate. }
  assert (match o with DRemove => flat_map (fun d : list nat => removelast d) [] | _ => [] end = []) as -> by now destruct o. cbn [sort_desc fold_right delete_all].
  eexists. split; [reflexivity|]. destruct (Z.eqb_spec sort 0) as [->|Ns]; [split; [reflexivity|]; split; [auto|]; split; lia|]. destruct (Z.ltb_spec 0 sort) as [Ls|Ls].
  - split; [apply sort_key_perm|]. split; [lia|]. split; [intros _; apply sort_key_sorted|lia].
  - split; [apply sort_key_perm|]. split; [lia|]. split; [lia|]. intros _. pose proof (sort_key_sorted (fun k => - kloc k) kfs) as S. induction S as [|a q S IH F]; constructor; [exact IH|]. rewrite Forall_forall in *. intros b Hb. specialize (F b Hb). cbn beta in F. lra.
Qed.
(** ondup='raise' raises IndexError exactly when there is a close pair; an unknown [ondup] is then a ValueError; 'warn' and None keep every line *)
Theorem C55_raise : forall tol sort kfs, 0 <= or_default tol 0 -> (load_line_list tol DRaise sort kfs = Raise IndexError <-> close_pair (or_default tol 0) kfs) /\ (load_line_list tol DInvalid sort kfs = Raise ValueError <-> close_pair (or_default tol 0) kfs).
Proof.
  intros tol sort kfs Ht. pose proof (dupsets_close (or_default tol 0) kfs Ht) as K. unfold SpecLineModel.load_line_list. cbv zeta. set (ds := dupsets (or_default tol 0) (map kloc kfs) (seq 0 (List.length kfs)) []) in *. destruct ds as [|d ds'].
  - cbn [sort_desc fold_right delete_all]. split; (split; [discriminate|intros P; apply K in P; congruence]).
  - assert (close_pair (or_default tol 0) kfs) as P by (apply K; discriminate). tauto.
Qed.
Theorem C55_warn : forall tol o sort kfs, o = DWarn \/ o = DIgnore -> exists l, load_line_list tol o sort kfs = Ok l /\ Permutation l kfs.
Proof.
  intros tol o sort kfs Ho. unfold SpecLineModel.load_line_list. cbv zeta. set (ds := dupsets _ _ _ _). destruct Ho as [->| ->]; (assert (sort_desc [] = []) as -> by reflexivity); cbn [delete_all];
  (eexists; split; [destruct ds; reflexivity|]; destruct (sort =? 0)%Z; [reflexivity|]; destruct (0 <? sort)%Z; apply sort_key_perm).
Qed.

(** exact duplicates *)
Lemma dups0 locs i j : (i < List.length locs)%nat -> In j (dups_of 0 locs i) <-> (j < List.length locs)%nat /\ nth j locs 0 = nth i locs 0.
Proof. intros Hi. unfold dups_of. rewrite filter_In, in_seq, near0. intuition lia. Qed.
Lemma last_in (l : list nat) d : l <> [] -> In (last l d) l.
Proof. intros N. rewrite (app_removelast_last d N) at 2. apply in_or_app. right. now left. Qed.
Lemma removelast_in (l : list nat) a d : NoDup l -> In a (removelast l) <-> In a l /\ a <> last l d.
Proof.
  intros N. destruct l as [|x l]; [cbn; tauto|]. assert (x :: l <> []) as Nl by discriminate. pose proof (app_removelast_last d Nl) as E. set (r := removelast (x :: l)) in *. set (z := last (x :: l) d) in *. rewrite E in N |- *. clearbody r z.
  rewrite in_app_iff. cbn [In]. assert (~ In z r) as Nz. { intros Q. apply NoDup_remove_2 in N. rewrite app_nil_r in N. contradiction. } split; [|intuition congruence]. intros H. split; [auto|]. intros ->. contradiction.
Qed.
Lemma dupsets0 locs is ig : (forall i, In i is -> (i < List.length locs)%nat) -> NoDup is -> (forall i j, In i ig -> (i < List.length locs)%nat -> (j < List.length locs)%nat -> nth j locs 0 = nth i locs 0 -> In j ig) ->
  let D := dupsets 0 locs is ig in
  (forall d, In d D -> exists i, In i is /\ ~ In i ig /\ Permutation d (dups_of 0 locs i) /\ (1 < List.length d)%nat) /\
  ForallOrdPairs (fun d d' => forall a, In a d -> ~ In a d') D /\
  (forall i, In i is -> ~ In i ig -> (1 < List.length (dups_of 0 locs i))%nat -> exists d, In d D /\ In i d).
Proof.
  revert ig. induction is as [|i is IH]; intros ig Hn Nd Cl; cbn [SpecLineModel.dupsets]; [split; [intros d []|split; [constructor|intros i []]]|]. inversion Nd as [|? ? Ni Nis]; subst. assert (forall j, In j is -> (j < List.length locs)%nat) as Hn' by (intros; apply Hn; now right). assert (i < List.length locs)%nat as Hi by (apply Hn; now left).
  destruct (existsb (Nat.eqb i) ig) eqn:E.
  - apply existsb_nat in E. destruct (IH ig Hn' Nis Cl) as (A & B & C). split; [intros d Hd; destruct (A d Hd) as (k & K1 & K2 & K3); exists k; split; [now right|auto]|]. split; [exact B|]. intros k [->|Hk]; [contradiction|auto].
  - assert (~ In i ig) as Nig by (intros Q; apply existsb_nat in Q; congruence). cbv zeta. destruct (Nat.ltb_spec 1 (List.length (dups_of 0 locs i))) as [L|L].
    + set (d0 := dups_of 0 locs i) in *. assert (forall a b, In a (ig ++ d0) -> (a < List.length locs)%nat -> (b < List.length locs)%nat -> nth b locs 0 = nth a locs 0 -> In b (ig ++ d0)) as Cl'.
      { intros a b Ha La Lb Eq. apply in_or_app. apply in_app_or in Ha. destruct Ha as [Ha|Ha]; [left; eauto|right]. apply dups0 in Ha; auto. apply dups0; auto. split; [auto|]. destruct Ha. congruence. }
      destruct (IH (ig ++ d0) Hn' Nis Cl') as (A & B & C). split; [|split].
      * intros d [<-|Hd]; [exists i; split; [now left|]; split; [auto|]; split; [apply ord_perm|rewrite (Permutation_length (ord_perm d0)); exact L]|]. destruct (A d Hd) as (k & K1 & K2 & K3). exists k. split; [now right|]. split; [|auto]. intros Q. apply K2, in_or_app. now left.
      * constructor; [|exact B]. rewrite Forall_forall. intros d Hd a Ha Had. destruct (A d Hd) as (k & K1 & K2 & K3 & _). apply (Permutation_in _ (ord_perm d0)) in Ha. apply (Permutation_in _ K3) in Had. apply dups0 in Ha; auto. apply dups0 in Had; auto. apply K2, in_or_app. right. apply dups0; auto. split; [auto|]. destruct Ha, Had. congruence.
      * intros k Hk Nk Lk. destruct (in_dec Nat.eq_dec k d0) as [Kd|Kd]; [exists (ord d0); split; [now left|]; apply (Permutation_in _ (Permutation_sym (ord_perm d0))); exact Kd|]. destruct Hk as [<-|Hk]; [exfalso; apply Kd, dups0; auto|].
        destruct (C k Hk) as (d & D1 & D2); [intros Q; apply in_app_or in Q; tauto|auto|]. exists d. split; [now right|auto].
    + destruct (IH ig Hn' Nis Cl) as (A & B & C). split; [intros d Hd; destruct (A d Hd) as (k & K1 & K2 & K3); exists k; split; [now right|auto]|]. split; [exact B|]. intros k [<-|Hk]; [lia|auto].
Qed.
Lemma nodup_app {A} (a b : list A) : NoDup a -> NoDup b -> (forall x, In x a -> ~ In x b) -> NoDup (a ++ b).
Proof. intros Na Nb H. induction Na as [|x a Nx Na IH]; cbn [List.app]; [exact Nb|]. constructor; [|apply IH; intros; apply H; now right]. intros Q. apply in_app_or in Q. destruct Q as [Q|Q]; [contradiction|]. apply (H x); [now left|auto]. Qed.
Lemma removelast_incl (d : list nat) a : In a (removelast d) -> In a d.
Proof. destruct d as [|x d]; [auto|]. intros H. rewrite (app_removelast_last 0%nat (l := x :: d)) by discriminate. apply in_or_app. now left. Qed.
Lemma torem_nodup D : (forall d, In d D -> NoDup d) -> ForallOrdPairs (fun d d' => forall a, In a d -> ~ In a d') D -> NoDup (flat_map (fun d : list nat => removelast d) D).
Proof.
  intros Nd F. induction F as [|d D Fd F IH]; cbn [flat_map]; [constructor|]. apply nodup_app.
  - specialize (Nd d (or_introl eq_refl)). destruct d as [|x d]; [constructor|]. rewrite (app_removelast_last 0%nat (l := x :: d)) in Nd by discriminate. apply NoDup_remove_1 in Nd. now rewrite app_nil_r in Nd.
  - apply IH. intros; apply Nd; now right.
  - intros a Ha Q. apply in_flat_map in Q. destruct Q as (d' & Hd' & Q). rewrite Forall_forall in Fd. apply (Fd d' Hd' a); now apply removelast_incl.
Qed.
Lemma pairs_eq (D : list (list nat)) d d' a : ForallOrdPairs (fun d d' => forall a, In a d -> ~ In a d') D -> In d D -> In d' D -> In a d -> In a d' -> d = d'.
Proof.
  intros F. induction F as [|e D Fe F IH]; [contradiction|]. rewrite Forall_forall in Fe. intros [<-|H1] [<-|H2] A1 A2; auto; exfalso; [apply (Fe d' H2 a)|apply (Fe d H1 a)]; auto.
Qed.
(** ondup='remove' without a tolerance: every location stays, exactly once, with one of the lines that had it *)
Theorem C55_remove : forall sort kfs, exists l, load_line_list None DRemove sort kfs = Ok l /\ NoDup (map kloc l) /\ (forall r, In r (map kloc l) <-> In r (map kloc kfs)) /\ (exists gone, Permutation (l ++ gone) kfs).
Proof.
  intros sort kfs. unfold SpecLineModel.load_line_list. cbv zeta. cbn [or_default]. set (locs := map kloc kfs). set (n := List.length kfs). assert (List.length locs = n) as Ln by (unfold locs; apply map_length). set (D := dupsets 0 locs (seq 0 n) []).
  destruct (dupsets0 locs (seq 0 n) []) as (A & B & C); [intros i Hi; apply in_seq in Hi; lia|apply seq_NoDup|intros i j []|]. fold D in A, B, C. set (T := flat_map (fun d : list nat => removelast d) D).
  assert (forall d, In d D -> NoDup d) as Nd by (intros d Hd; destruct (A d Hd) as (i & _ & _ & P & _); eapply Permutation_NoDup; [apply Permutation_sym, P|apply dups_nodup]).
  pose proof (torem_nodup D Nd B) as NT. fold T in NT. assert (forall i, In i T -> (i < n)%nat) as LT.
  { intros i Hi. apply in_flat_map in Hi. destruct Hi as (d & Hd & Hi). destruct (A d Hd) as (k & K1 & _ & P & _). apply removelast_incl in Hi. apply (Permutation_in _ P) in Hi. apply in_seq in K1. apply dups0 in Hi; lia. }
  assert (delete_all (sort_desc T) kfs = Ok (kept 0 T kfs)) as Del.
  { rewrite delete_all_kept; [f_equal; apply kept_perm_set; intros i; split; apply Permutation_in; [|apply Permutation_sym]; apply sort_desc_perm|now apply sort_desc_sorted|]. intros i Hi. apply (Permutation_in _ (sort_desc_perm T)) in Hi. now apply LT. }
  assert (exists l, Permutation l (kept 0 T kfs) /\ match D with _ :: _ | _ => match delete_all (sort_desc T) kfs with Ok l => Ok (if (sort =? 0)%Z then l else if (0 <? sort)%Z then sort_key kloc l else sort_key (fun k => - kloc k) l) | e => e end end = Ok l) as (l & Pl & El).
  { rewrite Del. eexists. split; [|destruct D; reflexivity]. destruct (sort =? 0)%Z; [reflexivity|]. destruct (0 <? sort)%Z; apply sort_key_perm. }
  exists l. split; [destruct D; exact El|].
  (* which indices stay *)
  assert (forall i j, (i < n)%nat -> (j < n)%nat -> nth i locs 0 = nth j locs 0 -> ~ In i T -> ~ In j T -> i = j) as Uni.
  { intros i j Hi Hj Eq Ni Nj. destruct (Nat.eq_dec i j) as [|N]; [auto|]. exfalso. assert (1 < List.length (dups_of 0 locs i))%nat as L2 by (apply (two_elems _ i j); [apply dups0; [lia|split; [lia|auto]]|apply dups0; [lia|split; [lia|auto]]|auto]).
    destruct (C i) as (d & Hd & Hid); [apply in_seq; lia|auto|auto|]. destruct (A d Hd) as (k & K1 & _ & P & _). apply in_seq in K1. assert (In j d) as Hjd.
    { apply (Permutation_in _ (Permutation_sym P)). apply dups0; [lia|]. split; [lia|]. apply (Permutation_in _ P) in Hid. apply dups0 in Hid; [|lia]. destruct Hid. congruence. }
    assert (forall a, In a d -> ~ In a T -> a = last d 0%nat) as Last. { intros a Ha Na. destruct (Nat.eq_dec a (last d 0%nat)); [auto|]. exfalso. apply Na. apply in_flat_map. exists d. split; [auto|]. apply (removelast_in d a 0%nat (Nd d Hd)). auto. }
    rewrite (Last i Hid Ni), (Last j Hjd Nj) in N. congruence. }
  assert (forall i, (i < n)%nat -> exists j, (j < n)%nat /\ nth j locs 0 = nth i locs 0 /\ ~ In j T) as Exi.
  { intros i Hi. destruct (in_dec Nat.eq_dec i T) as [Q|Q]; [|exists i; auto]. apply in_flat_map in Q. destruct Q as (d & Hd & Q). apply removelast_incl in Q. destruct (A d Hd) as (k & K1 & _ & P & Ld). apply in_seq in K1. exists (last d 0%nat).
    assert (d <> []) as Nn by (destruct d; [cbn in Ld; lia|discriminate]). pose proof (last_in d 0%nat Nn) as Hl. pose proof (Permutation_in _ P Hl) as Hl'. pose proof (Permutation_in _ P Q) as Q'. apply dups0 in Hl'; [|lia]. apply dups0 in Q'; [|lia].
    split; [lia|]. split; [destruct Hl', Q'; congruence|]. intros Z. apply in_flat_map in Z. destruct Z as (d' & Hd' & Z). assert (d = d') as <- by (eapply pairs_eq; eauto; now apply removelast_incl). apply (removelast_in d _ 0%nat (Nd d Hd)) in Z. tauto. }
  assert (forall k, In k (kept 0 T kfs) -> exists i, (i < n)%nat /\ ~ In i T /\ k = nth i kfs (Known 0 "")) as KI.
  { intros k Hk. unfold kept in Hk. apply in_map_iff in Hk. destruct Hk as (p & <- & Hp). apply filter_In in Hp. destruct Hp as (Hp & Op). destruct (lab_in 0 kfs p (Known 0 "") Hp) as (Lp & Ep). rewrite Nat.sub_0_r in Ep. exists (fst p). split; [unfold n; lia|]. split; [|auto]. unfold out in Op. intros Q. apply existsb_nat in Q. rewrite Q in Op. discriminate. }
  split; [|split].
  - eapply Permutation_NoDup; [apply Permutation_map, Permutation_sym, Pl|]. unfold kept. rewrite map_map. apply nodup_map_filter; [apply lab_nodup|]. intros p q Hp Hq Op Oq Eq. destruct (lab_in 0 kfs p (Known 0 "") Hp) as (Lp & Ep). destruct (lab_in 0 kfs q (Known 0 "") Hq) as (Lq & Eq'). rewrite Nat.sub_0_r in *.
    assert (fst p = fst q) as Ef. { apply Uni; try (unfold n; lia). { unfold locs. rewrite !nth_locs. congruence. } { unfold out in Op. intros Q. apply existsb_nat in Q. rewrite Q in Op. discriminate. } { unfold out in Oq. intros Q. apply existsb_nat in Q. rewrite Q in Oq. discriminate. } }
    destruct p as [pi pk], q as [qi qk]. cbn [fst snd] in *. congruence.
  - intros r. unfold locs. rewrite !in_map_iff. split.
    + intros (k & <- & Hk). apply (Permutation_in _ Pl) in Hk. destruct (KI k Hk) as (i & Hi & _ & ->). exists (nth i kfs (Known 0 "")). split; [auto|]. now apply nth_In.
    + intros (k & <- & Hk). destruct (In_nth _ _ (Known 0 "") Hk) as (i & Hi & <-). destruct (Exi i Hi) as (j & Hj & Ej & Nj). exists (nth j kfs (Known 0 "")). unfold locs in Ej. rewrite !nth_locs in Ej. split; [auto|]. apply (Permutation_in _ (Permutation_sym Pl)). unfold kept. apply in_map_iff. exists (j, nth j kfs (Known 0 "")). split; [reflexivity|].
      apply filter_In. split; [apply (in_lab 0 kfs j); auto|]. unfold out. cbn [fst]. destruct (existsb (Nat.eqb j) T) eqn:Q; [apply existsb_nat in Q; contradiction|reflexivity].
  - exists (map snd (filter (fun p => negb (out T p)) (lab 0 kfs))). transitivity (kept 0 T kfs ++ map snd (filter (fun p => negb (out T p)) (lab 0 kfs))); [now apply Permutation_app_tail|]. unfold kept. rewrite <- map_app. rewrite <- (lab_snd 0 kfs) at 3. apply Permutation_map, filter_perm.
Qed.
End C55.

(** with a tolerance, lines can disappear although nothing near them stays: here b is removed twice, and the second removal hits c; a and c have no line left within the tolerance *)
Ltac near_tac := repeat match goal with |- context [near ?t ?a ?b] =>
  let H := fresh in first [assert (near t a b = true) as H by (apply near_true; unfold Rabs; destruct (Rcase_abs (a - b)); lra) | assert (near t a b = false) as H by (apply near_false; unfold Rabs; destruct (Rcase_abs (a - b)); lra)]; rewrite H; clear H end.
Theorem C55_tolerance_refuted : load_line_list (fun l => l) (Some 1) DRemove 0 [Known 0 "a"; Known (9/10) "b"; Known (5/10) "c"; Known (18/10) "d"] = Ok [Known (18/10) "d"].
Proof.
  unfold load_line_list. cbn [or_default map kloc List.length seq].
  assert (dups_of 1 [0; 9/10; 5/10; 18/10] 0 = [0; 1; 2]%nat) as D0 by (unfold dups_of; cbn [List.length seq filter nth]; near_tac; reflexivity).
  assert (dups_of 1 [0; 9/10; 5/10; 18/10] 3 = [1; 3]%nat) as D3 by (unfold dups_of; cbn [List.length seq filter nth]; near_tac; reflexivity).
  unfold dupsets. cbn [existsb Nat.eqb orb List.app]. rewrite D0. cbn -[dups_of]. rewrite D3. reflexivity.
Qed.
Lemma dupsets_single ord tol locs i r ig d : dups_of tol locs i = d -> existsb (Nat.eqb i) ig = false -> Nat.ltb 1 (List.length d) = false -> dupsets ord tol locs (i :: r) ig = dupsets ord tol locs r ig.
Proof. intros <- E L. cbn [dupsets]. now rewrite E, L. Qed.
Lemma dupsets_multi ord tol locs i r ig d : dups_of tol locs i = d -> existsb (Nat.eqb i) ig = false -> Nat.ltb 1 (List.length d) = true -> dupsets ord tol locs (i :: r) ig = ord d :: dupsets ord tol locs r (ig ++ d).
Proof. intros <- E L. cbn [dupsets]. now rewrite E, L. Qed.
(** 'removes all but last': which one stays depends on the order in which Python iterates over a set of integers; {1, 8} comes as 8, 1 in CPython, and the first line stays *)
Theorem C55_last_refuted : forall ord, ord [1; 8]%nat = [8; 1]%nat ->
  let kfs := [Known 0 "l0"; Known 1 "first"; Known 2 "l2"; Known 3 "l3"; Known 4 "l4"; Known 5 "l5"; Known 6 "l6"; Known 7 "l7"; Known 1 "last"] in
  load_line_list ord None DRemove 0 kfs = Ok (removelast kfs).
Proof.
  intros ord Ho. cbv zeta. unfold load_line_list. cbn [or_default map kloc List.length seq].
  assert (dups_of 0 [0; 1; 2; 3; 4; 5; 6; 7; 1] 0 = [0]%nat) as D0 by (unfold dups_of; cbn [List.length seq filter nth]; near_tac; reflexivity).
  assert (dups_of 0 [0; 1; 2; 3; 4; 5; 6; 7; 1] 1 = [1; 8]%nat) as D1 by (unfold dups_of; cbn [List.length seq filter nth]; near_tac; reflexivity).
  assert (dups_of 0 [0; 1; 2; 3; 4; 5; 6; 7; 1] 2 = [2]%nat) as D2 by (unfold dups_of; cbn [List.length seq filter nth]; near_tac; reflexivity).
  assert (dups_of 0 [0; 1; 2; 3; 4; 5; 6; 7; 1] 3 = [3]%nat) as D3 by (unfold dups_of; cbn [List.length seq filter nth]; near_tac; reflexivity).
  assert (dups_of 0 [0; 1; 2; 3; 4; 5; 6; 7; 1] 4 = [4]%nat) as D4 by (unfold dups_of; cbn [List.length seq filter nth]; near_tac; reflexivity).
  assert (dups_of 0 [0; 1; 2; 3; 4; 5; 6; 7; 1] 5 = [5]%nat) as D5 by (unfold dups_of; cbn [List.length seq filter nth]; near_tac; reflexivity).
  assert (dups_of 0 [0; 1; 2; 3; 4; 5; 6; 7; 1] 6 = [6]%nat) as D6 by (unfold dups_of; cbn [List.length seq filter nth]; near_tac; reflexivity).
  assert (dups_of 0 [0; 1; 2; 3; 4; 5; 6; 7; 1] 7 = [7]%nat) as D7 by (unfold dups_of; cbn [List.length seq filter nth]; near_tac; reflexivity).
  cut (dupsets ord 0 [0; 1; 2; 3; 4; 5; 6; 7; 1] [0; 1; 2; 3; 4; 5; 6; 7; 8]%nat [] = [[8; 1]%nat]). { intros ->. reflexivity. }
  rewrite (dupsets_single _ _ _ _ _ _ _ D0), (dupsets_multi _ _ _ _ _ _ _ D1), Ho by reflexivity. f_equal. cbn [List.app].
  rewrite (dupsets_single _ _ _ _ _ _ _ D2), (dupsets_single _ _ _ _ _ _ _ D3), (dupsets_single _ _ _ _ _ _ _ D4), (dupsets_single _ _ _ _ _ _ _ D5), (dupsets_single _ _ _ _ _ _ _ D6), (dupsets_single _ _ _ _ _ _ _ D7) by reflexivity. reflexivity.
Qed.

(** ** C56 *)
Section C56.
Variables c h ergperev : R.
Hypothesis Hc : 0 < c.
Hypothesis Hh : 0 < h.
Hypothesis He : 0 < ergperev.
Notation xtrans := (xtrans c h ergperev).
Notation featSetUnit := (featSetUnit c h ergperev).
Notation kSetUnit := (kSetUnit c h ergperev).
Notation getUnitLoc := (getUnitLoc c h ergperev).
Definition feat_run (names : list string) (f : feature) : feature := fold_left (fun f n => fst (featSetUnit f n)) names f.
Definition positive (f : feature) : Prop := 0 < frest f /\ 0 < getCenter f /\ 0 < fst (fextent f) /\ 0 < snd (fextent f).
(** after any sequence of unit names the rest position, centre and extent are the initial ones expressed in the selected unit *)
Theorem C56_feature_units : forall names f, positive f -> let f' := feat_run names f in let v := selected (funit f) names in
  funit f' = v /\ frest f' = xtrans (funit f) v (frest f) /\ getCenter f' = xtrans (funit f) v (getCenter f) /\ fextent f' = (xtrans (funit f) v (fst (fextent f)), xtrans (funit f) v (snd (fextent f))) /\ positive f'.
Proof.
  intros names f (P1 & P2 & P3 & P4). unfold feat_run, selected. induction names as [|n names IH] using rev_ind.
  - cbn [fold_left]. cbv zeta. rewrite !(x_id c h ergperev He). repeat (split; [reflexivity|]). split; [now destruct (fextent f)|]. unfold positive. auto.
  - rewrite !fold_left_app. cbn [fold_left]. cbv zeta in IH |- *. destruct IH as (U & E1 & E2 & E3 & Pp). set (g := fold_left (fun f n => fst (featSetUnit f n)) names f) in *. set (u := fold_left (fun u n => match strToUnit n with Ok v => v | _ => u end) names (funit f)) in *. clearbody g u.
    unfold SpecLineModel.featSetUnit. destruct (C49_name_result n) as [(v & Hv)|Hv]; rewrite Hv; [|cbn [fst]; auto]. rewrite U. destruct (unit_eqb v u) eqn:Eu; [apply unit_eqb_eq in Eu; subst v; cbn [fst]; auto|]. cbn [fst]. unfold fApply.
    cbn [funit frest fextent fst snd]. unfold getCenter at 1. cbn [fcenter]. rewrite U, E1, E2, E3. cbn [fst snd]. rewrite !(xtrans_compose c h ergperev Hc Hh He) by lra.
    repeat (split; [reflexivity|]). unfold positive. cbn [frest fextent fst snd]. unfold getCenter at 1. cbn [fcenter]. repeat split; now apply (xtrans_pos c h ergperev Hc Hh He).
Qed.
(** the error of the centre is not converted: between wavelength units it becomes the centre itself *)
Theorem C56_center_error_refuted : forall f v e, ptype (funit f) = Wav -> ptype v = Wav -> fcerr f = Some e -> fcerr (fApply c h ergperev f v) = Some (getCenter (fApply c h ergperev f v)).
Proof.
  intros f v e Hu Hv Ee. unfold fApply. cbn [fcerr]. rewrite Ee. unfold getCenter at 3. cbn [fcenter]. f_equal. unfold SpecModel.xtrans. rewrite Hu, Hv. cbn [conv fst]. pose proof (scale_pos _ He v). field. lra.
Qed.
(** KnownFeature.getUnitLoc: the location in the unit asked for; the feature keeps its own unit, unless that is THz or eV *)
Theorem C56_getUnitLoc : forall f n, kl f <> 0 -> ku f <> UTHz -> ku f <> UeV -> match strToUnit n with Ok v => getUnitLoc f n = (f, Ok (xtrans (ku f) v (kl f))) | _ => getUnitLoc f n = (f, Raise ValueError) end.
Proof.
  intros f n Hl N1 N2. unfold SpecLineModel.getUnitLoc. pose proof (C49_reported_name (ku f) N1 N2) as Hn. destruct (String.eqb_spec n (unit_name (ku f))) as [->|Nn]; [rewrite Hn; now rewrite (x_id c h ergperev He)|].
  unfold SpecLineModel.kSetUnit. destruct (C49_name_result n) as [(v & Hv)|Hv]; rewrite Hv.
  - destruct (unit_eqb v (ku f)) eqn:Eu.
    + apply unit_eqb_eq in Eu. subst v. rewrite Hn. assert (unit_eqb (ku f) (ku f) = true) as -> by now apply unit_eqb_eq. now rewrite (x_id c h ergperev He).
    + rewrite Hn. cbn [ku kl]. assert (unit_eqb (ku f) v = false) as ->. { destruct (unit_eqb (ku f) v) eqn:Q; [|reflexivity]. apply unit_eqb_eq in Q. subst v. assert (unit_eqb (ku f) (ku f) = true) by now apply unit_eqb_eq. congruence. }
      rewrite (back_and_forth c h ergperev Hc Hh He) by auto. now destruct f.
  - rewrite Hn. assert (unit_eqb (ku f) (ku f) = true) as -> by now apply unit_eqb_eq. reflexivity.
Qed.
Theorem C56_getUnitLoc_refuted : forall f n v, ku f = UTHz \/ ku f = UeV -> strToUnit n = Ok v -> snd (getUnitLoc f n) = Raise ValueError /\ ku (fst (getUnitLoc f n)) = v.
Proof.
  intros f n v Hu Hv. unfold SpecLineModel.getUnitLoc. destruct (String.eqb_spec n (unit_name (ku f))) as [->|Nn]; [destruct Hu as [E|E]; rewrite E in Hv; discriminate|].
  assert (strToUnit (unit_name (ku f)) = Raise ValueError) as Q by (destruct Hu as [E|E]; rewrite E; reflexivity).
  assert (forall g, kSetUnit g (unit_name (ku f)) = (g, Raise ValueError)) as Q2 by (intros g; unfold SpecLineModel.kSetUnit; now rewrite Q).
  assert (exists g, kSetUnit f n = (g, Ok tt) /\ ku g = v) as (g & -> & Hg).
  { unfold SpecLineModel.kSetUnit. rewrite Hv. destruct (unit_eqb v (ku f)) eqn:Eu; eexists; split; try reflexivity. apply unit_eqb_eq in Eu. now symmetry. }
  rewrite Q2. cbn [fst snd]. auto.
Qed.
End C56.

(** *** the flux of a line *)
(** Specification: pixel [i] extends from midpoint to midpoint *)
Definition edge (x : list R) (i : nat) : R := (nth (i - 1) x 0 + nth i x 0) / 2.
Definition width (x : list R) (i : nat) : R := edge x (i + 1) - edge x i.
Definition total (g : nat -> R) (i j : nat) : R := fold_right Rplus 0 (map g (seq i (j - i))).
Lemma searchsorted_spec x v : StronglySorted Rlt x -> (searchsorted x v <= List.length x)%nat /\ forall i, (i < List.length x)%nat -> ((i < searchsorted x v)%nat <-> nth i x 0 < v).
Proof.
  unfold searchsorted. intros S. induction S as [|a x S (L & IH) F]; [split; [cbn; lia|intros i Hi; cbn in Hi; lia]|]. cbn [filter List.length]. rewrite Forall_forall in F. destruct (Rlt_dec a v) as [A|A].
  - cbn [List.length]. split; [lia|]. intros [|i] Hi; cbn [nth]; [split; [auto|lia]|]. rewrite <- (IH i) by lia. lia.
  - assert (filter (fun y => if Rlt_dec y v then true else false) x = []) as ->. { assert (forall q, (forall y, In y q -> a < y) -> filter (fun y => if Rlt_dec y v then true else false) q = []) as K; [|now apply K]. induction q as [|y q IHq]; intros Hq; cbn [filter]; [reflexivity|]. destruct (Rlt_dec y v); [specialize (Hq y (or_introl eq_refl)); lra|]. apply IHq. intros; apply Hq; now right. }
    cbn [List.length]. split; [lia|]. intros [|i] Hi; cbn [nth]; [split; [lia|contradiction]|]. split; [lia|]. intros Q. assert (In (nth i x 0) x) as Hin by (apply nth_In; lia). specialize (F _ Hin). lra.
Qed.
Lemma slice_map (i j : nat) (l : list R) : (j <= List.length l)%nat -> slice i j l = map (fun k => nth k l 0) (seq i (j - i)).
Proof.
  unfold slice. revert i j. induction l as [|a l IH]; intros i j Hj; cbn [List.length] in Hj.
  - assert (j = O) as -> by lia. reflexivity.
  - destruct i as [|i].
    + cbn [skipn]. rewrite Nat.sub_0_r. destruct j as [|j]; [reflexivity|]. cbn [firstn seq map nth]. f_equal. specialize (IH O j ltac:(lia)). cbn [skipn] in IH. rewrite Nat.sub_0_r in IH. rewrite IH. rewrite <- seq_shift, map_map. reflexivity.
    + cbn [skipn]. destruct j as [|j]; [reflexivity|]. cbn [Nat.sub]. rewrite IH by lia. rewrite <- seq_shift, map_map. reflexivity.
Qed.
Lemma half_steps_map (g : nat -> R) k m : half_steps (map g (seq k (S (S m)))) = map (fun i => (g (i + 2)%nat - g i) / 2) (seq k m).
Proof.
  revert k. induction m as [|m IH]; intros k; [reflexivity|]. cbn [seq map]. specialize (IH (S k)). cbn [seq map] in IH. change (half_steps (g k :: g (S k) :: g (S (S k)) :: map g (seq (S (S (S k))) m))) with ((g (S (S k)) - g k) / 2 :: half_steps (g (S k) :: g (S (S k)) :: map g (seq (S (S (S k))) m))). rewrite IH. f_equal. f_equal. f_equal. f_equal. lia.
Qed.
Lemma map2_map {A} (f : R -> R -> R) (g1 g2 : A -> R) l : map2 f (map g1 l) (map g2 l) = map (fun a => f (g1 a) (g2 a)) l.
Proof. unfold map2. induction l as [|a l IH]; cbn [map combine fst snd]; [reflexivity|]. now rewrite IH. Qed.
Lemma flux_core x y cont i j : List.length y = List.length x -> (forall l, cont = Some l -> List.length l = List.length x) -> (1 <= i < j)%nat -> (j < List.length x)%nat ->
  bmult (map2 Rminus (slice i j y) (match cont with Some l => slice i j l | None => map (fun _ => 0) (slice i j y) end)) (half_steps (slice (i - 1) (S j) x)) =
  Ok (map (fun k => (nth k y 0 - match cont with Some l => nth k l 0 | None => 0 end) * width x k) (seq i (j - i))).
Proof.
  intros Ly Lc Hi Hj. assert ((match cont with Some l => slice i j l | None => map (fun _ => 0) (slice i j y) end) = map (fun k => match cont with Some l => nth k l 0 | None => 0 end) (seq i (j - i))) as ->.
  { destruct cont as [l|]; [rewrite slice_map by (rewrite (Lc l eq_refl); lia); reflexivity|]. rewrite slice_map by lia. rewrite map_map. reflexivity. }
  rewrite (slice_map i j y) by lia. rewrite map2_map. rewrite slice_map by lia. replace (S j - (i - 1))%nat with (S (S (j - i))) by lia. rewrite half_steps_map.
  assert (map (fun k => (nth (k + 2) x 0 - nth k x 0) / 2) (seq (i - 1) (j - i)) = map (width x) (seq i (j - i))) as ->.
  { replace i with (S (i - 1)) at 3 by lia. rewrite <- seq_shift, map_map. apply map_ext. intros k. unfold width, edge. replace (S k + 1 - 1)%nat with (S k) by lia. replace (S k - 1)%nat with k by lia. replace (S k + 1)%nat with (k + 2)%nat by lia. field. }
  unfold bmult. rewrite !map_length, Nat.eqb_refl. now rewrite map2_map.
Qed.
(** the flux is the sum, over the pixels with x1 <= x < x2, of (flux - continuum) times the pixel's width; the first and the last pixel of the spectrum must be outside *)
Theorem C56_line_flux : forall x y cont a b, StronglySorted Rlt x -> List.length y = List.length x -> (forall l, cont = Some l -> List.length l = List.length x) ->
  (0 < List.length x)%nat -> nth 0 x 0 < Rmin a b -> Rmax a b <= nth (List.length x - 1) x 0 ->
  exists i j, (1 <= i <= j /\ j < List.length x)%nat /\ (forall k, (k < List.length x)%nat -> ((i <= k < j)%nat <-> Rmin a b <= nth k x 0 < Rmax a b)) /\
    ((i < j)%nat -> line_flux x y cont (a, b) = Ok (total (fun k => (nth k y 0 - match cont with Some l => nth k l 0 | None => 0 end) * width x k) i j)).
Proof.
  intros x y cont a b Hs Ly Lc Hn H1 H2. set (n := List.length x) in *. set (x1 := Rmin a b) in *. set (x2 := Rmax a b) in *. assert (x1 <= x2) as X12 by (unfold x1, x2; unfold Rmin, Rmax; destruct (Rle_dec a b); lra).
  destruct (searchsorted_spec x x1 Hs) as (L1 & S1). destruct (searchsorted_spec x x2 Hs) as (L2 & S2). fold n in L1, L2, S1, S2. set (i := searchsorted x x1) in *. set (j := searchsorted x x2) in *.
  assert (1 <= i)%nat as Hi by (apply (S1 O); auto). assert (j < n)%nat as Hj. { destruct (le_lt_dec n j) as [Q|Q]; [|auto]. exfalso. assert (nth (n - 1) x 0 < x2) by (apply (S2 (n - 1)%nat); lia). lra. }
  assert (i <= j)%nat as Hij. { destruct (le_lt_dec i j) as [|Q]; [auto|]. exfalso. assert (nth j x 0 < x1) as Q1 by (apply (S1 j); [lia|lia]). assert (~ nth j x 0 < x2) as Q2 by (intros Z; apply (S2 j) in Z; lia). lra. }
  exists i, j. split; [lia|]. split. { intros k Hk. specialize (S1 k Hk). specialize (S2 k Hk). split; [intros (K1 & K2); split; [|apply S2; lia]|intros (K1 & K2)]. { destruct (Rle_dec x1 (nth k x 0)); [auto|]. assert (k < i)%nat by (apply S1; lra). lia. } { split; [|apply S2; lra]. destruct (le_lt_dec i k) as [|Q]; [auto|]. apply S1 in Q. lra. } }
  intros Lij. unfold line_flux. cbn [fst snd]. fold x1 x2 i j. pose proof (flux_core x y cont i j Ly Lc ltac:(lia) ltac:(fold n; lia)) as K. unfold total.
  assert (match i with O => O | S k => k end = (i - 1)%nat) as -> by (destruct i; lia). assert (match j with O => O | S _ => S j end = S j) as -> by (destruct j; [lia|reflexivity]). 
  assert (convolve_valid (slice (i - 1) (S j) x) = Ok (half_steps (slice (i - 1) (S j) x))) as ->; [|rewrite K; reflexivity]. rewrite slice_map by (fold n; lia). replace (S j - (i - 1))%nat with (S (S (S (j - i - 1)))) by lia. reflexivity.
Qed.
(** so a constant excess over the continuum gives that excess times the distance between the outer midpoints *)
Theorem C56_constant : forall x k i j, (i <= j)%nat -> total (fun n => k * width x n) i j = k * (edge x j - edge x i).
Proof.
  intros x k i j L. unfold total. replace (edge x j) with (edge x (i + (j - i))) by (f_equal; lia). generalize (j - i)%nat as m. clear j L. intros m. revert i. induction m as [|m IH]; intros i; cbn [seq map fold_right]; [rewrite Nat.add_0_r; ring|]. rewrite IH. unfold width. replace (i + 1)%nat with (S i) by lia. replace (i + S m)%nat with (S i + m)%nat by lia. ring.
Qed.
(** at the ends of the spectrum: a line with the first three pixels (or more) raises ValueError; one with the first two uses the width of the second for both *)
Theorem C56_ends_refuted : let x := [1; 2; 3; 4; 5; 6] in let y := [10; 20; 30; 40; 50; 60] in
  line_flux x y None (0, 35/10) = Raise ValueError /\ line_flux x y None (0, 25/10) = Ok 30 /\ line_flux x y None (0, 15/10) = Ok 5 /\ line_flux x y None (25/10, 7) = Raise ValueError.
Proof.
  cbv zeta. assert (forall v k, (forall y, In y (firstn k [1; 2; 3; 4; 5; 6]) -> y < v) -> (forall y, In y (skipn k [1; 2; 3; 4; 5; 6]) -> v <= y) -> (k <= 6)%nat -> searchsorted [1; 2; 3; 4; 5; 6] v = k) as K.
  { intros v k H1 H2 Hk. unfold searchsorted. rewrite <- (firstn_skipn k [1; 2; 3; 4; 5; 6]). rewrite filter_app, app_length.
    assert (forall q, (forall y, In y q -> y < v) -> filter (fun y => if Rlt_dec y v then true else false) q = q) as A. { induction q as [|a q IH]; intros H; cbn [filter]; [reflexivity|]. destruct (Rlt_dec a v) as [_|N]; [f_equal; apply IH; intros; apply H; now right|exfalso; apply N, H; now left]. }
    assert (forall q, (forall y, In y q -> v <= y) -> filter (fun y => if Rlt_dec y v then true else false) q = []) as B. { induction q as [|a q IH]; intros H; cbn [filter]; [reflexivity|]. destruct (Rlt_dec a v) as [Y|_]; [exfalso; specialize (H a (or_introl eq_refl)); lra|apply IH; intros; apply H; now right]. }
    rewrite (A _ H1), (B _ H2). rewrite firstn_length. cbn [List.length]. lia. }
  assert (forall a b, a <= b -> Rmin a b = a /\ Rmax a b = b) as M by (intros a b L; split; [now apply Rmin_left|now apply Rmax_right]).
  assert (searchsorted [1; 2; 3; 4; 5; 6] 0 = 0%nat) as S0 by (apply K; [intros y []|cbn; intros y H; decompose [or] H; subst; lra || contradiction|lia]).
  assert (searchsorted [1; 2; 3; 4; 5; 6] (35/10) = 3%nat) as S3 by (apply K; [cbn; intros y H; decompose [or] H; subst; lra || contradiction|cbn; intros y H; decompose [or] H; subst; lra || contradiction|lia]).
  assert (searchsorted [1; 2; 3; 4; 5; 6] (25/10) = 2%nat) as S2 by (apply K; [cbn; intros y H; decompose [or] H; subst; lra || contradiction|cbn; intros y H; decompose [or] H; subst; lra || contradiction|lia]).
  assert (searchsorted [1; 2; 3; 4; 5; 6] (15/10) = 1%nat) as S1 by (apply K; [cbn; intros y H; decompose [or] H; subst; lra || contradiction|cbn; intros y H; decompose [or] H; subst; lra || contradiction|lia]).
  assert (searchsorted [1; 2; 3; 4; 5; 6] 7 = 6%nat) as S7 by (apply K; [cbn; intros y H; decompose [or] H; subst; lra || contradiction|intros y []|lia]).
  unfold line_flux. cbn [fst snd]. destruct (M 0 (35/10) ltac:(lra)) as (-> & ->). destruct (M 0 (25/10) ltac:(lra)) as (-> & ->). destruct (M 0 (15/10) ltac:(lra)) as (-> & ->). destruct (M (25/10) 7 ltac:(lra)) as (-> & ->). rewrite S0, S1, S2, S3, S7.
  split; [reflexivity|]. split; [|split; [|reflexivity]].
  - unfold slice. cbn [Nat.sub firstn skipn half_steps convolve_valid map map2 combine bmult List.length Nat.eqb sum fold_right fst snd]. f_equal. unfold map2. cbn [combine map fst snd fold_right]. lra.
  - unfold slice. cbn [Nat.sub firstn skipn half_steps convolve_valid map map2 combine bmult List.length Nat.eqb sum fold_right fst snd]. f_equal. unfold map2. cbn [combine map fst snd fold_right]. lra.
Qed.
