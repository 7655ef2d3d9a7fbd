(** * TabCodes: the source codes of a table (C102) *)
From Coq Require Import List Bool Arith Ascii String Lia Permutation Sorted.
From Verif Require Import PyBase PubModel IoColumns TabModel.
Import ListNotations.

(** ** Specification *)
(** a value has a source of its own unless the source is None or the value is derived *)
Definition real (s : str) : Prop := s <> L "None" /\ firstn 9 s <> L "dependent".
(** the different elements of a list, in the order in which they first appear *)
Definition str_dec : forall a b : str, {a = b} + {a <> b} := list_eq_dec ascii_dec.
Fixpoint distinct (l : list str) : list str := match l with [] => [] | x :: r => x :: filter (fun y => if str_dec y x then false else true) (distinct r) end.
Definition realb (s : str) : bool := if str_dec s (L "None") then false else if str_dec (firstn 9 s) (L "dependent") then false else true.
Lemma realb_spec s : realb s = true <-> real s.
Proof. unfold realb, real. destruct (str_dec s (L "None")) as [E|N]; [split; [discriminate|tauto]|]. destruct (str_dec (firstn 9 s) (L "dependent")); split; try discriminate; tauto. Qed.
(** all the sources of a table, object by object and then column by column *)
Definition sources (rows : list (list str)) : list str := distinct (filter realb (List.concat rows)).
(** the text in the source column lists in increasing order the numbers of the sources of the row; [names] counts from 1 *)
Definition lists (names : list str) (row : list str) (text : str) : Prop :=
  exists cs, text = join (L ",") (map decimal cs) /\ StronglySorted lt cs /\
    forall c, In c cs <-> exists k s, c = S k /\ nth_error names k = Some s /\ In s row /\ real s.

(** ** The parts *)
Lemma seqb_refl s : str_eqb s s = true. Proof. now apply str_eqb_spec. Qed.
Lemma seqb_neq a b : a <> b -> str_eqb a b = false. Proof. intros N. destruct (str_eqb a b) eqn:E; [apply str_eqb_spec in E; contradiction|reflexivity]. Qed.
Lemma distinct_in x l : In x (distinct l) <-> In x l.
Proof.
  induction l as [|y l IH]; [tauto|]. cbn [distinct In]. rewrite filter_In, IH. destruct (str_dec x y) as [->|N]; [tauto|]. intuition congruence.
Qed.
Lemma distinct_nodup l : NoDup (distinct l).
Proof. induction l as [|y l IH]; constructor; [|now apply NoDup_filter]. rewrite filter_In. destruct (str_dec y y); intuition congruence. Qed.
Lemma filter_comm {A} (f g : A -> bool) l : filter f (filter g l) = filter g (filter f l).
Proof. induction l as [|x l IH]; [reflexivity|]. cbn [filter]. destruct (f x) eqn:F, (g x) eqn:G; cbn [filter]; rewrite ?F, ?G, IH; reflexivity. Qed.
Lemma filter_id {A} (f : A -> bool) l : (forall x, In x l -> f x = true) -> filter f l = l.
Proof. induction l as [|x l IH]; intros H; [reflexivity|]. cbn [filter]. rewrite (H x (or_introl eq_refl)), IH; [reflexivity|]. intros y I'; apply H; now right. Qed.
Lemma distinct_filter f l : distinct (filter f l) = filter f (distinct l).
Proof.
  induction l as [|x l IH]; [reflexivity|]. cbn [filter distinct]. destruct (f x) eqn:F; cbn [distinct filter]; [now rewrite IH, filter_comm|].
  rewrite IH, filter_comm. symmetry. apply filter_id. intros y I'. apply filter_In in I'. destruct (str_dec y x) as [->|]; [intuition congruence|reflexivity].
Qed.
Lemma uinsert_in x y l : In y (uinsert x l) <-> y = x \/ In y l.
Proof.
  induction l as [|z l IH]; cbn [uinsert]; [cbn; intuition congruence|].
  destruct (str_eqb x z) eqn:E; [apply str_eqb_spec in E; subst; cbn; intuition congruence|]. destruct (str_ltb x z); cbn [In]; rewrite ?IH; intuition congruence.
Qed.
Lemma str_ltb_irr a : str_ltb a a = false.
Proof. induction a as [|x a IH]; [reflexivity|]. cbn [str_ltb]. now rewrite Nat.ltb_irrefl. Qed.
Lemma str_ltb_trans a b c : str_ltb a b = true -> str_ltb b c = true -> str_ltb a c = true.
Proof.
  revert b c; induction a as [|x a IH]; intros [|y b] [|z c]; cbn [str_ltb]; try discriminate; auto. intros H1 H2.
  destruct (Nat.ltb (nat_of_ascii x) (nat_of_ascii y)) eqn:E1, (Nat.ltb (nat_of_ascii y) (nat_of_ascii z)) eqn:E2;
  destruct (Nat.ltb (nat_of_ascii y) (nat_of_ascii x)) eqn:E3, (Nat.ltb (nat_of_ascii z) (nat_of_ascii y)) eqn:E4; try discriminate;
  destruct (Nat.ltb (nat_of_ascii x) (nat_of_ascii z)) eqn:E5; try reflexivity; destruct (Nat.ltb (nat_of_ascii z) (nat_of_ascii x)) eqn:E6;
  rewrite ?Nat.ltb_lt, ?Nat.ltb_ge in *; try lia. eauto.
Qed.
Lemma str_ltb_total a b : a <> b -> str_ltb a b = false -> str_ltb b a = true.
Proof.
  revert b; induction a as [|x a IH]; intros [|y b] N; cbn [str_ltb]; try discriminate; auto.
  destruct (Nat.ltb (nat_of_ascii x) (nat_of_ascii y)) eqn:E1; [discriminate|]. destruct (Nat.ltb (nat_of_ascii y) (nat_of_ascii x)) eqn:E2; [reflexivity|]. intros H.
  apply IH; [|exact H]. intros ->. apply N. f_equal. rewrite Nat.ltb_ge in *. rewrite <- (ascii_nat_embedding x), <- (ascii_nat_embedding y). f_equal. lia.
Qed.
Definition slt (a b : str) : Prop := str_ltb a b = true.
Lemma uinsert_sorted x l : StronglySorted slt l -> StronglySorted slt (uinsert x l).
Proof.
  induction 1 as [|y l S IH F]; cbn [uinsert]; [repeat constructor|]. destruct (str_eqb x y) eqn:E; [now constructor|].
  destruct (str_ltb x y) eqn:E2.
  - constructor; [now constructor|]. constructor; [exact E2|]. eapply Forall_impl; [|exact F]. intros z Hz. exact (str_ltb_trans _ _ _ E2 Hz).
  - constructor; [exact IH|]. apply Forall_forall. intros z I'. apply uinsert_in in I'. destruct I' as [->|I'].
    + apply str_ltb_total; [|exact E2]. intros ->. now rewrite seqb_refl in E.
    + rewrite Forall_forall in F. auto.
Qed.
Lemma unique_sorted l : StronglySorted slt (unique l).
Proof. induction l as [|x l IH]; [constructor|]. cbn. now apply uinsert_sorted. Qed.
Lemma unique_in x l : In x (unique l) <-> In x l.
Proof. induction l as [|y l IH]; [tauto|]. change (In x (uinsert y (unique l)) <-> In x (y :: l)). rewrite uinsert_in, IH. cbn [In]. intuition congruence. Qed.
Lemma sorted_nodup {A} (R : A -> A -> Prop) l : (forall a, ~ R a a) -> StronglySorted R l -> NoDup l.
Proof. intros I'. induction 1 as [|x l S IH F]; constructor; auto. intros H. rewrite Forall_forall in F. exact (I' x (F x H)). Qed.
Lemma unique_nodup l : NoDup (unique l).
Proof. apply (sorted_nodup slt); [|apply unique_sorted]. intros a H. unfold slt in H. now rewrite str_ltb_irr in H. Qed.
Lemma ninsert_in x y l : In y (ninsert x l) <-> y = x \/ In y l.
Proof.
  induction l as [|z l IH]; cbn [ninsert]; [cbn; intuition congruence|].
  destruct (Nat.eqb x z) eqn:E; [apply Nat.eqb_eq in E; subst; cbn; intuition congruence|]. destruct (Nat.ltb x z); cbn [In]; rewrite ?IH; intuition congruence.
Qed.
Lemma nunique_in x l : In x (nunique l) <-> In x l.
Proof. induction l as [|y l IH]; [tauto|]. change (In x (ninsert y (nunique l)) <-> In x (y :: l)). rewrite ninsert_in, IH. cbn [In]. intuition congruence. Qed.
Lemma nunique_sorted l : StronglySorted lt (nunique l).
Proof.
  induction l as [|x l IH]; [constructor|]. change (StronglySorted lt (ninsert x (nunique l))). induction IH as [|y k S IH F]; cbn [ninsert]; [repeat constructor|].
  destruct (Nat.eqb x y) eqn:E; [now constructor|]. apply Nat.eqb_neq in E. destruct (Nat.ltb x y) eqn:E2; rewrite ?Nat.ltb_lt, ?Nat.ltb_ge in E2.
  - constructor; [now constructor|]. constructor; [exact E2|]. eapply Forall_impl; [|exact F]. intros z Hz. lia.
  - constructor; [exact IH|]. apply Forall_forall. intros z I'. apply ninsert_in in I'. destruct I' as [->|I']; [lia|]. rewrite Forall_forall in F. auto.
Qed.
Lemma ssorted_filter {A} (R : A -> A -> Prop) f l : StronglySorted R l -> StronglySorted R (filter f l).
Proof. induction 1 as [|x l S IH F]; [constructor|]. cbn [filter]. destruct (f x); [|exact IH]. constructor; [exact IH|]. rewrite Forall_forall in *. intros y I'. apply filter_In in I'. now apply F. Qed.

(** None first, every name once *)
Lemma swap_none_in l : NoDup l -> NoDup (swap_none l) /\ nth_error (swap_none l) 0 = Some none /\ forall x, In x (swap_none l) <-> x = none \/ In x l.
Proof.
  intros N. unfold swap_none. destruct (existsb (str_eqb none) l) eqn:E.
  - apply existsb_exists in E. destruct E as (n' & I' & E). apply str_eqb_spec in E. subst n'. destruct l as [|h r]; [contradiction|]. cbn [map skipn].
    inversion N as [|? ? N1 N2]; subst. split; [|split; [reflexivity|]].
    + destruct (str_dec h none) as [->|D].
      * rewrite (map_ext_in _ (fun s => s)), map_id; [exact N|]. intros s I2. rewrite seqb_neq; [reflexivity|]. intros ->. contradiction.
      * assert (In none r) by (destruct I' as [I'|I']; [contradiction|exact I']). constructor.
        -- rewrite in_map_iff. intros (s & Es & I2). destruct (str_dec s none) as [->|D2]; [rewrite seqb_refl in Es; contradiction|rewrite seqb_neq in Es by exact D2; contradiction].
        -- clear I' N. induction r as [|y r IH]; [contradiction|]. cbn [map]. inversion N2 as [|? ? N3 N4]; subst. cbn [In] in N1.
           destruct (str_dec y none) as [->|D2].
           ++ rewrite seqb_refl. rewrite (map_ext_in _ (fun s => s)), map_id; [constructor; tauto|]. intros s I2. rewrite seqb_neq; [reflexivity|]. intros ->. contradiction.
           ++ rewrite seqb_neq by exact D2. destruct H as [->|H]; [contradiction|]. constructor; [|apply IH; tauto]. rewrite in_map_iff. intros (s & Es & I2).
              destruct (str_dec s none) as [->|D3]; [rewrite seqb_refl in Es; subst; tauto|rewrite seqb_neq in Es by exact D3; subst; contradiction].
    + intros x. cbn [In]. rewrite in_map_iff. split.
      * intros [<-|(s & Es & I2)]; [now left|]. right. destruct (str_dec s none) as [->|D3]; [rewrite seqb_refl in Es; subst; now left|rewrite seqb_neq in Es by exact D3; subst; now right].
      * intros [->|[->|I2]]; [now left| |].
        -- destruct I' as [<-|I']; [now left|]. right. exists none. now rewrite seqb_refl.
        -- destruct (str_dec x none) as [->|D3]; [now left|]. right. exists x. now rewrite seqb_neq by exact D3.
  - assert (~ In none l) as NI. { intros I'. assert (existsb (str_eqb none) l = true) by (apply existsb_exists; exists none; split; [exact I'|apply seqb_refl]). congruence. }
    split; [now constructor|]. split; [reflexivity|]. intros x. cbn [In]. intuition congruence.
Qed.
Lemma index_in s l : In s l -> nth_error l (index s l) = Some s.
Proof. induction l as [|x l IH]; [contradiction|]. cbn [index]. destruct (str_dec s x) as [->|N]; [now rewrite seqb_refl|]. rewrite (seqb_neq _ _ N). intros [->|I']; [contradiction|]. now apply IH. Qed.
Lemma index_inj l a b : In a l -> In b l -> index a l = index b l -> a = b.
Proof. intros A B E. apply index_in in A, B. rewrite E in A. congruence. Qed.
Lemma index_lt s l : In s l -> index s l < List.length l.
Proof. intros I'. apply index_in in I'. apply nth_error_Some. congruence. Qed.

(** codes appear in the order of the names *)
Lemma first_seen_go f l acc : (forall a b, In a (acc ++ l) -> In b (acc ++ l) -> f a = f b :> nat -> a = b) ->
  fold_left (fun o c => if existsb (Nat.eqb c) o then o else o ++ [c]) (map f l) (map f acc) = map f (acc ++ filter (fun y => if in_dec str_dec y acc then false else true) (distinct l)).
Proof.
  revert acc; induction l as [|x l IH]; intros acc Inj; cbn [map fold_left distinct filter]; [now rewrite app_nil_r|].
  assert (existsb (Nat.eqb (f x)) (map f acc) = if in_dec str_dec x acc then true else false) as ->.
  { destruct (in_dec str_dec x acc) as [I'|N].
    - apply existsb_exists. exists (f x). split; [now apply in_map|apply Nat.eqb_refl].
    - destruct (existsb (Nat.eqb (f x)) (map f acc)) eqn:E; [|reflexivity]. exfalso. apply existsb_exists in E. destruct E as (c & I' & E). apply Nat.eqb_eq in E. subst c.
      apply in_map_iff in I'. destruct I' as (y & E & I'). apply N. rewrite <- (Inj y x); [exact I'|apply in_or_app; now left|apply in_or_app; right; now left|exact E]. }
  destruct (in_dec str_dec x acc) as [I'|N].
  - rewrite IH. 2:{ intros a b A B. apply Inj; apply in_app_or in A, B; apply in_or_app; cbn [In]; tauto. }
    f_equal. f_equal. rewrite filter_comm. symmetry. apply filter_id. intros y I2. apply filter_In in I2. destruct (str_dec y x) as [->|]; [|reflexivity]. destruct (in_dec str_dec x acc); intuition congruence.
  - change [f x] with (map f [x]). rewrite <- map_app, IH. 2:{ intros a b A B. apply Inj; rewrite <- app_assoc in A, B; assumption. }
    f_equal. rewrite <- app_assoc. f_equal. cbn [app]. f_equal. clear IH; induction (distinct l) as [|y k IH']; [reflexivity|]. cbn [filter].
    destruct (str_dec y x) as [->|D].
    + destruct (in_dec str_dec x (acc ++ [x])) as [I3|N3]; [exact IH'|]. exfalso. apply N3. apply in_or_app. right. now left.
    + cbn [filter]. destruct (in_dec str_dec y (acc ++ [x])) as [I3|N3], (in_dec str_dec y acc) as [I4|N4]; rewrite IH'; try reflexivity; exfalso.
      * apply in_app_or in I3. cbn in I3. intuition congruence.
      * apply N3. apply in_or_app. now left.
Qed.
Lemma first_seen_map f l : (forall a b, In a l -> In b l -> f a = f b :> nat -> a = b) -> first_seen (map f l) = map f (distinct l).
Proof. intros Inj. unfold first_seen. pose proof (first_seen_go f l [] Inj) as H. cbn [map app] in H. rewrite H. f_equal. apply filter_id. intros y _. destruct (in_dec str_dec y []) as [[]|]. reflexivity. Qed.
Lemma remove1_map f x l : NoDup l -> (forall a, In a l -> f a = f x :> nat -> a = x) -> remove1 (f x) (map f l) = map f (filter (fun y => if str_dec y x then false else true) l).
Proof.
  induction l as [|y l IH]; intros N Inj; [reflexivity|]. inversion N as [|? ? N1 N2]; subst. cbn [map remove1 filter]. destruct (str_dec y x) as [->|D].
  - rewrite Nat.eqb_refl. f_equal. symmetry. apply filter_id. intros z I'. destruct (str_dec z x) as [->|]; [contradiction|reflexivity].
  - assert (Nat.eqb (f y) (f x) = false) as -> by (apply Nat.eqb_neq; intros E; apply D, Inj; [now left|exact E]). cbn [map]. f_equal. apply IH; [exact N2|]. intros a I'. apply Inj. now right.
Qed.

(** argsort of a permutation is its inverse *)
Lemma pinsert_perm p l : Permutation (pinsert p l) (p :: l).
Proof. induction l as [|q l IH]; [reflexivity|]. cbn [pinsert]. destruct (Nat.leb (fst p) (fst q)); [reflexivity|]. rewrite IH. constructor. Qed.
Lemma psort_perm l : Permutation (fold_right pinsert [] l) l.
Proof. induction l as [|p l IH]; [reflexivity|]. cbn [fold_right]. rewrite pinsert_perm. now constructor. Qed.
Lemma psort_sorted l : StronglySorted (fun p q : nat * nat => fst p <= fst q) (fold_right pinsert [] l).
Proof.
  induction l as [|p l IH]; [constructor|]. cbn [fold_right]. induction IH as [|q k S IH F]; cbn [pinsert]; [repeat constructor|].
  destruct (Nat.leb (fst p) (fst q)) eqn:E; [apply Nat.leb_le in E|apply Nat.leb_gt in E].
  - constructor; [now constructor|]. constructor; [exact E|]. eapply Forall_impl; [|exact F]. cbv beta. intros; lia.
  - constructor; [exact IH|]. apply Forall_forall. intros z I'. apply (Permutation_in _ (pinsert_perm p k)) in I'. destruct I' as [<-|I']; [lia|]. rewrite Forall_forall in F. auto.
Qed.
Lemma seq_sorted n k : StronglySorted le (seq k n).
Proof. revert k; induction n as [|n IH]; intros k; [constructor|]. cbn [seq]. constructor; [apply IH|]. apply Forall_forall. intros x I'. apply in_seq in I'. lia. Qed.
Lemma sorted_unique (l k : list nat) : StronglySorted le l -> StronglySorted le k -> Permutation l k -> l = k.
Proof.
  revert k; induction l as [|x l IH]; intros k S1 S2 P; [apply Permutation_nil in P; now subst|]. destruct k as [|y k]; [apply Permutation_sym, Permutation_nil in P; discriminate|].
  inversion S1 as [|? ? S3 F1]; inversion S2 as [|? ? S4 F2]; subst. assert (x = y) as ->.
  { rewrite Forall_forall in F1, F2. assert (In x (y :: k)) as I1 by (apply (Permutation_in _ P); now left). assert (In y (x :: l)) as I2 by (apply (Permutation_in _ (Permutation_sym P)); now left).
    destruct I1 as [->|I1]; [reflexivity|]. destruct I2 as [->|I2]; [reflexivity|]. apply F2 in I1. apply F1 in I2. lia. }
  f_equal. apply IH; auto. eapply Permutation_cons_inv. exact P.
Qed.
Lemma argsort_inverse p c : Permutation p (seq 0 (List.length p)) -> c < List.length p -> nth_error p (nth c (argsort p) 0) = Some c.
Proof.
  intros P C. unfold argsort. set (q := fold_right pinsert [] (combine p (seq 0 (List.length p)))).
  assert (Permutation q (combine p (seq 0 (List.length p)))) as Q by apply psort_perm.
  assert (List.length (combine p (seq 0 (List.length p))) = List.length p) as Lc by (rewrite combine_length, seq_length; lia).
  assert (map fst (combine p (seq 0 (List.length p))) = p) as Mf.
  { clear. generalize 0. induction p as [|x p IH]; intros k; [reflexivity|]. cbn [List.length seq combine map fst]. now rewrite IH. }
  assert (map fst q = seq 0 (List.length p)) as M.
  { apply sorted_unique; [|apply seq_sorted|].
    - assert (S := psort_sorted (combine p (seq 0 (List.length p)))). fold q in S. clear - S. induction S as [|x l S IH F]; [constructor|]. cbn [map]. constructor; [exact IH|]. apply Forall_map. exact F.
    - rewrite <- P at 1. rewrite <- Mf at 1. now apply Permutation_map. }
  assert (List.length q = List.length p) as Lq by (rewrite (Permutation_length Q); exact Lc).
  destruct (nth_error q c) as [[a j]|] eqn:E. 2:{ apply nth_error_None in E. lia. }
  assert (a = c) as ->. { assert (nth_error (map fst q) c = Some a) as E2 by (rewrite nth_error_map, E; reflexivity). rewrite M in E2.
    assert (nth_error (seq 0 (List.length p)) c = Some c) as E3. { rewrite (nth_error_nth' _ 0) by (rewrite seq_length; lia). rewrite seq_nth by lia. reflexivity. } congruence. }
  assert (nth c (map snd q) 0 = j) as ->. { apply nth_error_nth. rewrite nth_error_map, E. reflexivity. }
  apply nth_error_In in E. apply (Permutation_in _ Q) in E. clear - E. assert (forall k, In (c, j) (combine p (seq k (List.length p))) -> k <= j /\ nth_error p (j - k) = Some c) as G.
  { clear E. induction p as [|x p IH]; intros k; [contradiction|]. cbn [List.length seq combine In]. intros [H|H].
    - injection H as -> ->. split; [lia|]. now rewrite Nat.sub_diag.
    - destruct (IH _ H) as (H1 & H2). split; [lia|]. replace (j - k) with (S (j - S k)) by lia. exact H2. }
  apply G in E. rewrite Nat.sub_0_r in E. tauto.
Qed.

(** ** Together *)
Lemma clean_real s : real s -> clean s = s.
Proof. intros (_ & N). unfold clean. now rewrite seqb_neq. Qed.
Lemma clean_not s : ~ real s -> clean s = L "None".
Proof. intros N. unfold clean. destruct (str_eqb (firstn 9 s) (L "dependent")) eqn:E; [reflexivity|]. destruct (str_dec s (L "None")) as [|D]; [assumption|]. exfalso. apply N. split; [exact D|]. intros H. rewrite H, seqb_refl in E. discriminate. Qed.
Lemma real_dec s : real s \/ ~ real s.
Proof. destruct (realb s) eqn:E; [left; now apply realb_spec|right]. intros R. apply realb_spec in R. congruence. Qed.
Lemma clean_in s : real s -> forall l, In s (map clean l) <-> In s l.
Proof.
  intros R l. rewrite in_map_iff. split; [|intros I'; exists s; split; [now apply clean_real|exact I']]. intros (t & E & I'). destruct (real_dec t) as [Rt|Rt]; [rewrite clean_real in E by exact Rt; now subst|].
  rewrite clean_not in E by exact Rt. subst s. destruct R as (R & _). contradiction.
Qed.
Lemma clean_filter l : filter (fun y => if str_dec y none then false else true) (map clean l) = filter realb l.
Proof.
  induction l as [|s l IH]; [reflexivity|]. cbn [map filter]. rewrite IH. destruct (real_dec s) as [R|R].
  - rewrite clean_real by exact R. destruct (str_dec s none) as [E|_]; [destruct R as (R & _); contradiction|]. apply realb_spec in R. now rewrite R.
  - rewrite clean_not by exact R. destruct (str_dec (L "None") none) as [_|N]; [|contradiction]. destruct (realb s) eqn:E; [|reflexivity]. apply realb_spec in E. contradiction.
Qed.
Lemma choose_name usrcs (names : list str) s : NoDup usrcs -> Permutation names usrcs -> In s usrcs ->
  nth_error names (nth (index s usrcs) (argsort (map (fun s => index s usrcs) names)) 0) = Some s.
Proof.
  intros N P I'. set (f := fun s => index s usrcs). assert (Permutation (map f names) (seq 0 (List.length (map f names)))) as Pm.
  { rewrite map_length. apply NoDup_Permutation_bis.
    - assert (NoDup names) as Nn by (eapply Permutation_NoDup; [symmetry; exact P|exact N]). assert (forall x, In x names -> In x usrcs) as Sub by (intros x; apply Permutation_in; exact P).
      clear P. induction Nn as [|x l Nx Nl IH]; [constructor|]. cbn [map]. constructor; [|apply IH; intros y Hy; apply Sub; now right].
      rewrite in_map_iff. intros (y & E & Iy). apply Nx. rewrite <- (index_inj usrcs y x); [exact Iy|apply Sub; now right|apply Sub; now left|exact E].
    - rewrite seq_length, map_length. lia.
    - intros c Ic. apply in_map_iff in Ic. destruct Ic as (x & <- & Ix). apply in_seq. split; [lia|]. cbn [plus]. rewrite (Permutation_length P). apply index_lt. eapply Permutation_in; eauto. }
  assert (f s < List.length (map f names)) as C by (rewrite map_length, (Permutation_length P); now apply index_lt).
  pose proof (argsort_inverse _ _ Pm C) as A. rewrite nth_error_map in A. change (index s usrcs) with (f s).
  destruct (nth_error names (nth (f s) (argsort (map f names)) 0)) as [t|] eqn:E; [|discriminate]. cbn [option_map] in A. assert (f t = f s) as A2 by congruence. f_equal. apply (index_inj usrcs); [|exact I'|exact A2].
  apply nth_error_In in E. eapply Permutation_in; eauto.
Qed.
Lemma forall2_map_r {A B} (R : A -> B -> Prop) (g : A -> B) l : (forall x, In x l -> R x (g x)) -> Forall2 R l (map g l).
Proof. induction l as [|x l IH]; intros H; constructor; [apply H; now left|]. apply IH. intros y I'. apply H. now right. Qed.
Lemma row_text usrcs names row : NoDup usrcs -> NoDup (none :: names) -> Permutation (none :: names) usrcs -> (forall s, In s (map clean row) -> In s usrcs) ->
  lists names row (join (L ",") (map decimal (filter (fun c => negb (Nat.eqb c 0)) (nunique (map (fun c => nth c (argsort (map (fun s => index s usrcs) (none :: names))) 0) (map (fun s => index s usrcs) (map clean row))))))).
Proof.
  intros N Nn P Sub. eexists. split; [reflexivity|]. split; [apply ssorted_filter, nunique_sorted|]. intros c. rewrite filter_In, nunique_in, map_map, in_map_iff.
  rewrite negb_true_iff, Nat.eqb_neq. split.
  - intros ((s & E & I') & C). pose proof (choose_name usrcs _ s N P (Sub s I')) as Ch. cbv beta in E. rewrite E in Ch. destruct c as [|k]; [contradiction|]. exists k, s. split; [reflexivity|]. split; [exact Ch|].
    assert (s <> L "None") as D. { intros ->. inversion Nn as [|? ? N1 N2]; subst. apply N1. eapply nth_error_In. exact Ch. }
    apply in_map_iff in I'. destruct I' as (t & Et & I'). destruct (real_dec t) as [R|R]; [rewrite clean_real in Et by exact R; now subst|]. rewrite clean_not in Et by exact R. congruence.
  - intros (k & s & -> & Nk & I' & R). split; [|discriminate]. exists s. split; [|now apply clean_in]. assert (In s usrcs) as Iu by (apply Sub; now apply clean_in).
    pose proof (choose_name usrcs _ s N P Iu) as Ch. change (nth_error names k) with (nth_error (none :: names) (S k)) in Nk.
    eapply NoDup_nth_error; [exact Nn| |]. { apply nth_error_Some. rewrite Ch. discriminate. } rewrite Ch, Nk. reflexivity.
Qed.
Lemma source_eval rows : (exists row s, In row rows /\ In s row /\ ~ real s) ->
  exists texts, source_codes rows = (if Nat.leb (S (List.length (sources rows))) 31 then Ok (texts, L "None" :: sources rows) else Raise ValueError) /\ Forall2 (lists (sources rows)) rows texts.
Proof.
  intros (row0 & s0 & Ir & Is & Nr). unfold source_codes. set (all := List.concat (map (map clean) rows)).
  assert (all = map clean (List.concat rows)) as Ea by (unfold all; now rewrite concat_map).
  set (usrcs := swap_none (unique all)). destruct (swap_none_in (unique all) (unique_nodup all)) as (N & Z & M). fold usrcs in N, Z, M.
  assert (In none all) as In0. { rewrite Ea, in_map_iff. exists s0. split; [now apply clean_not|]. apply in_concat. eauto. }
  assert (forall x, In x usrcs <-> In x all) as Mu. { intros x. rewrite M, unique_in. split; [intros [->|]; auto|auto]. }
  set (f := fun s => index s usrcs). assert (f none = 0) as F0. { unfold f. clearbody usrcs. destruct usrcs as [|h u]; [discriminate|]. cbn in Z. injection Z as ->. cbn [index]. now rewrite seqb_refl. }
  rewrite <- concat_map. fold all.
  assert (forall a b, In a all -> In b all -> f a = f b -> a = b) as Inj. { intros a b A B. apply index_inj; now apply Mu. }
  rewrite (first_seen_map f all Inj).
  assert (existsb (Nat.eqb 0) (map f (distinct all)) = true) as ->. { apply existsb_exists. exists 0. split; [|reflexivity]. rewrite <- F0. apply in_map. now apply distinct_in. }
  assert (0 :: remove1 0 (map f (distinct all)) = map f (none :: sources rows)) as ->.
  { cbn [map]. rewrite F0. f_equal. rewrite <- F0, remove1_map; [|apply distinct_nodup|]. 2:{ intros a A E. exact (Inj a none (proj1 (distinct_in _ _) A) In0 E). }
    f_equal. rewrite <- distinct_filter, Ea, clean_filter. reflexivity. }
  set (names := none :: sources rows).
  assert (forall s, In s names <-> In s usrcs) as Nm.
  { intros s. rewrite Mu. unfold names, sources. cbn [In]. rewrite distinct_in, filter_In, realb_spec. split.
    - intros [<-|(I' & R)]; [exact In0|]. rewrite Ea. now apply clean_in.
    - intros I'. rewrite Ea in I'. apply in_map_iff in I'. destruct I' as (t & <- & I'). destruct (real_dec t) as [R|R]; [right; rewrite clean_real by exact R; auto|left; symmetry; now apply clean_not]. }
  assert (NoDup names) as Nn. { constructor; [|apply distinct_nodup]. unfold sources. rewrite distinct_in, filter_In, realb_spec. intros (_ & R & _). contradiction. }
  assert (Permutation names usrcs) as P by (apply NoDup_Permutation; auto).
  assert (List.length (argsort (map f names)) = S (List.length (sources rows))) as La.
  { unfold argsort. rewrite map_length, (Permutation_length (psort_perm _)), combine_length, seq_length, map_length. unfold names. cbn [List.length]. lia. }
  rewrite La. eexists. split.
  - destruct (Nat.leb (S (List.length (sources rows))) 31); [|reflexivity]. f_equal. f_equal. rewrite map_map. rewrite (map_ext_in _ (fun s => s)), map_id; [reflexivity|]. intros s I'. unfold f. apply Nm in I'. now apply nth_error_nth, index_in.
  - rewrite !map_map. 
    assert (forall r, In r rows -> forall s, In s (map clean r) -> In s usrcs) as Sub.
    { intros r R s I'. apply Mu. unfold all. apply in_concat. exists (map clean r). split; [now apply in_map|exact I']. }
    apply forall2_map_r. intros r R. rewrite map_map. rewrite <- map_map with (f := fun s => index s usrcs) (g := fun c => nth c (argsort (map f names)) 0). apply row_text; auto. exact (Sub r R).
Qed.
(** The names after None are the sources in the order of their first appearance, and every text lists the sources of its row. *)
Theorem source_column rows : (exists row s, In row rows /\ In s row /\ ~ real s) -> List.length (sources rows) <= 30 ->
  exists texts, source_codes rows = Ok (texts, L "None" :: sources rows) /\ Forall2 (lists (sources rows)) rows texts.
Proof. intros H Len. destruct (source_eval rows H) as (texts & E & F). exists texts. split; [|exact F]. rewrite E. destruct (Nat.leb_spec (S (List.length (sources rows))) 31); [reflexivity|lia]. Qed.
(** What "in the order of first appearance" means for two sources. *)
Lemma distinct_app l k : distinct (l ++ k) = distinct l ++ filter (fun y => if in_dec str_dec y l then false else true) (distinct k).
Proof.
  induction l as [|x l IH]; cbn [app distinct]; [symmetry; apply filter_id; intros y _; destruct (in_dec str_dec y []) as [[]|]; reflexivity|].
  f_equal. rewrite IH, filter_app. f_equal. clear IH. induction (distinct k) as [|y m IH']; [reflexivity|]. cbn [filter].
  destruct (in_dec str_dec y l) as [I'|N], (in_dec str_dec y (x :: l)) as [I2|N2].
  - exact IH'.
  - exfalso. apply N2. now right.
  - cbn [filter]. destruct (str_dec y x) as [->|D]; [exact IH'|]. destruct I2 as [E|I2]; [symmetry in E|]; contradiction.
  - cbn [filter]. destruct (str_dec y x) as [->|D]; [exfalso; apply N2; now left|]. now rewrite IH'.
Qed.
Theorem source_order before x later y : real x -> real y -> In y (sources later) -> ~ In y (sources (before ++ [[x]])) ->
  exists i j, i < j /\ nth_error (sources (before ++ [[x]] ++ later)) i = Some x /\ nth_error (sources (before ++ [[x]] ++ later)) j = Some y.
Proof.
  intros Rx Ry Iy Ny. unfold sources in *. rewrite app_assoc, concat_app, filter_app, distinct_app. set (a := filter realb (List.concat (before ++ [[x]]))) in *. set (b := filter realb (List.concat later)) in *.
  assert (In x (distinct a)) as Ix. { apply distinct_in. unfold a. apply filter_In. split; [|now apply realb_spec]. rewrite concat_app. apply in_or_app. right. now left. }
  apply In_nth_error in Ix. destruct Ix as (i & Ei).
  assert (In y (filter (fun z => if in_dec str_dec z a then false else true) (distinct b))) as Iy2. { apply filter_In. split; [exact Iy|]. destruct (in_dec str_dec y a) as [I'|]; [|reflexivity]. exfalso. apply Ny. now apply distinct_in. }
  apply In_nth_error in Iy2. destruct Iy2 as (j & Ej). assert (i < List.length (distinct a)) as Li by (apply nth_error_Some; congruence).
  exists i, (List.length (distinct a) + j). split; [lia|]. rewrite nth_error_app1 by exact Li. split; [exact Ei|]. rewrite nth_error_app2 by lia. replace (List.length (distinct a) + j - List.length (distinct a)) with j by lia. exact Ej.
Qed.
(** The annotation numbers the same names from 1. *)
Theorem annotation_lists names : annotation (L "None" :: names) = L "Source Code:" ++ join (L ",") (map (fun p => L " " ++ decimal (fst p) ++ L ") " ++ snd p) (combine (seq 1 (List.length names)) names)) ++ L ".".
Proof. reflexivity. Qed.
(** Refuted: "every table has its sources listed".  It fails if every value has a source of its own, and with more than 30 sources. *)
Theorem source_column_complete_refuted rows : (forall s, In s (List.concat rows) -> real s) -> source_codes rows = Raise ValueError.
Proof.
  intros H. unfold source_codes. set (all := List.concat (map (map clean) rows)). assert (all = List.concat rows) as Ea.
  { unfold all. rewrite <- concat_map. rewrite (map_ext_in _ (fun s => s)); [apply map_id|]. intros s I'. apply clean_real. auto. }
  set (usrcs := swap_none (unique all)). destruct (swap_none_in (unique all) (unique_nodup all)) as (N & Z & M). fold usrcs in N, Z, M.
  destruct (existsb (Nat.eqb 0) (first_seen (List.concat (map (map (fun s => index s usrcs)) (map (map clean) rows))))) eqn:E; [|reflexivity]. exfalso.
  rewrite <- concat_map in E. fold all in E. rewrite first_seen_map in E. 2:{ intros a b A B. apply index_inj; apply M; right; now apply unique_in. }
  apply existsb_exists in E. destruct E as (c & I' & E). apply Nat.eqb_eq in E. subst c. apply in_map_iff in I'. destruct I' as (s & E & I'). apply -> distinct_in in I'.
  assert (In s usrcs) as Iu by (apply M; right; now apply <- unique_in). apply index_in in Iu. rewrite E, Z in Iu. injection Iu as Iu. rewrite Ea in I'. apply H in I'. destruct I' as (D & _). unfold none in Iu. congruence.
Qed.
Theorem source_column_limit_refuted rows : (exists row s, In row rows /\ In s row /\ ~ real s) -> 30 < List.length (sources rows) -> source_codes rows = Raise ValueError.
Proof. intros H Len. destruct (source_eval rows H) as (texts & E & F). rewrite E. destruct (Nat.leb_spec (S (List.length (sources rows))) 31); [lia|reflexivity]. Qed.
(** two objects with two columns each; the second value of the first is derived *)
Definition two := [[L "Smith 09"; L "dependent:Abell 01"]; [L "Abell 01"; L "Smith 09"]].
Example two_codes : source_codes two = Ok ([L "1"; L "1,2"], [L "None"; L "Smith 09"; L "Abell 01"]).
Proof. vm_compute. reflexivity. Qed.
Example two_annotation : annotation [L "None"; L "Smith 09"; L "Abell 01"] = L "Source Code: 1) Smith 09, 2) Abell 01.".
Proof. vm_compute. reflexivity. Qed.
Example two_hyp : (exists row s, In row two /\ In s row /\ ~ real s) /\ List.length (sources two) <= 30.
Proof. split; [|vm_compute; lia]. exists [L "Smith 09"; L "dependent:Abell 01"], (L "dependent:Abell 01"). split; [now left|]. split; [right; now left|]. intros (_ & N). apply N. reflexivity. Qed.
Example all_real_hyp : forall s, In s (List.concat [[L "Smith 09"]; [L "Abell 01"]]) -> real s.
Proof. intros s H. cbn [List.concat app In] in H. destruct H as [<-|[<-|[]]]; split; discriminate. Qed.
