(** * PlProof: C134, the data of plots *)
From Coq Require Import List Arith Bool Reals Lia Lra Permutation Sorted.
From Verif Require Import PyBase PlModel.
Import ListNotations.

Section Proofs.
Context {A : Type}.
Variable leb : A -> A -> bool.
Definition total_order : Prop := (forall a b, leb a b = true \/ leb b a = true) /\ (forall a b c, leb a b = true -> leb b c = true -> leb a c = true) /\ (forall a b, leb a b = true -> leb b a = true -> a = b).
(** ** Specification *)
Definition count (p : A -> bool) (l : list A) : nat := List.length (filter p l).
Definition less (a b : A) : bool := negb (leb b a).
Definition le (a b : A) : Prop := leb a b = true.

(** ** Lemmas *)
Lemma insert_perm a l : Permutation (insert leb a l) (a :: l).
Proof. induction l as [|b r IH]; cbn; [reflexivity|]. destruct (leb a b); [reflexivity|]. rewrite IH. constructor. Qed.
Lemma sort_perm l : Permutation (sort leb l) l.
Proof. induction l as [|a l IH]; cbn; [reflexivity|]. rewrite insert_perm. now constructor. Qed.
Lemma insert_sorted a l : total_order -> StronglySorted le l -> StronglySorted le (insert leb a l).
Proof.
  intros (T & Tr & _) S. induction S as [|b r S IH F]; cbn; [repeat constructor|]. destruct (leb a b) eqn:E.
  - constructor; [now constructor|]. constructor; [exact E|]. revert F. apply Forall_impl. intros c C. exact (Tr a b c E C).
  - constructor; [exact IH|]. apply (Permutation_Forall (Permutation_sym (insert_perm a r))). constructor; [|exact F]. destruct (T a b); [congruence|trivial].
Qed.
Lemma sort_sorted l : total_order -> StronglySorted le (sort leb l).
Proof. intros T. induction l; cbn; [constructor|]. now apply insert_sorted. Qed.
Lemma count_perm p (l l' : list A) : Permutation l l' -> count p l = count p l'.
Proof. intros P. unfold count. induction P; cbn; [reflexivity|destruct (p x); cbn; congruence|destruct (p x), (p y); reflexivity|congruence]. Qed.
Lemma filter_none {B} (p : B -> bool) l : (forall a, In a l -> p a = false) -> filter p l = [].
Proof. induction l as [|a l IH]; intros H; cbn; [reflexivity|]. rewrite H by (now left). apply IH. intros b I. apply H. now right. Qed.
Lemma filter_every {B} (p : B -> bool) l : (forall a, In a l -> p a = true) -> filter p l = l.
Proof. induction l as [|a l IH]; intros H; cbn; [reflexivity|]. rewrite H by (now left). f_equal. apply IH. intros b I. apply H. now right. Qed.
Lemma filter_most {B} (p : B -> bool) l : List.length (filter p l) <= List.length l.
Proof. induction l; cbn; [lia|]. destruct (p a); cbn; lia. Qed.
Lemma nth_split_at {B} (l : list B) i a : nth_error l i = Some a -> exists l1 l2, l = l1 ++ a :: l2 /\ List.length l1 = i.
Proof. apply nth_error_split. Qed.
Lemma sorted_app (l1 l2 : list A) a : StronglySorted le (l1 ++ a :: l2) -> (forall b, In b l1 -> le b a) /\ (forall b, In b l2 -> le a b).
Proof.
  induction l1 as [|b l1 IH]; cbn; intros S; inversion S as [|? ? S' F]; subst.
  - split; [intros ? []|]. rewrite Forall_forall in F. exact F.
  - destruct (IH S') as (X & Y). split; [|exact Y]. intros c [<-|C]; [|now apply X]. rewrite Forall_forall in F. apply F, in_elt.
Qed.
Lemma nth_combine_seq {B} (l : list B) n i a k : n = List.length l -> nth_error (combine l (seq 0 n)) i = Some (a, k) -> nth_error l i = Some a /\ k = i.
Proof.
  assert (X : forall (l : list B) i s, nth_error (combine l (seq s (List.length l))) i = Some (a, k) -> nth_error l i = Some a /\ k = s + i).
  { clear. induction l as [|b l IH]; intros [|i] s H; cbn in *; try discriminate; [injection H as <- <-; split; [reflexivity|lia]|]. destruct (IH i (S s) H) as (X & Y). split; [exact X|lia]. }
  intros -> H. exact (X l i 0 H).
Qed.

(** ** Theorems *)
(** C134: without edges the x are the data in (descending, for N(>x)) order, and y at a point is the number of data below (above) it, plus the number of equal data before it *)
Theorem C134_cumulative : forall data nlt, total_order -> exists p, cumulative leb data nlt None None = Ok p /\
  Permutation (map fst p) data /\
  (forall i j a b, i < j -> nth_error (map fst p) i = Some a -> nth_error (map fst p) j = Some b -> if nlt then leb a b = true else leb b a = true) /\
  (forall i x y, nth_error p i = Some (x, y) ->
     if nlt then count (fun d => less d x) data <= y < count (fun d => leb d x) data else count (fun d => less x d) data <= y < count (fun d => leb x d) data).
Proof.
  intros data nlt T. unfold cumulative. eexists. split; [reflexivity|]. pose proof (sort_perm data) as Pm. pose proof (sort_sorted data T) as So. set (x := sort leb data) in *.
  assert (Lx : List.length data = List.length (if nlt then x else rev x)) by (rewrite <- (Permutation_length Pm); destruct nlt; [reflexivity|now rewrite rev_length]).
  assert (Fst : map fst (combine (if nlt then x else rev x) (seq 0 (List.length data))) = if nlt then x else rev x).
  { rewrite Lx. generalize (if nlt then x else rev x). intros l. generalize 0. induction l as [|a l IH]; intros s; cbn; [reflexivity|]. now rewrite IH. }
  rewrite Fst. destruct T as (T & Tr & An). split; [destruct nlt; [exact Pm|now rewrite <- Permutation_rev]|]. 
  assert (Ord : forall i j a b, i < j -> nth_error x i = Some a -> nth_error x j = Some b -> le a b).
  { intros i j a b L Ia Jb. destruct (nth_split_at x i a Ia) as (l1 & l2 & E & Ll). rewrite E in So, Jb. destruct (sorted_app l1 l2 a So) as (_ & Y). apply Y. rewrite nth_error_app2 in Jb by lia. destruct (j - List.length l1) as [|k] eqn:K; [lia|]. cbn in Jb. eapply nth_error_In; eauto. }
  split.
  - intros i j a b L Ia Jb. destruct nlt; [exact (Ord i j a b L Ia Jb)|]. assert (Lj : j < List.length x) by (rewrite <- (rev_length x); apply nth_error_Some; congruence).
    assert (R : forall k c, nth_error (rev x) k = Some c -> nth_error x (List.length x - S k) = Some c).
    { intros k c H. assert (Lk : k < List.length x) by (rewrite <- (rev_length x); apply nth_error_Some; congruence). rewrite <- H. rewrite (nth_error_nth' x c) by lia. rewrite (nth_error_nth' (rev x) c) by (rewrite rev_length; lia). now rewrite rev_nth by lia. }
    apply (Ord (List.length x - S j) (List.length x - S i)); [lia|now apply R|now apply R].
  - intros i a y H. apply nth_combine_seq in H; [|exact Lx]. destruct H as (H & ->).
    assert (Cn : forall p, count p data = count p x) by (intros p; apply count_perm; now apply Permutation_sym).
    destruct nlt.
    + destruct (nth_split_at x i a H) as (l1 & l2 & E & Ll). rewrite !Cn, E. rewrite E in So. destruct (sorted_app l1 l2 a So) as (X & Y). unfold count, less. rewrite !filter_app, !app_length. cbn [filter]. assert (Ra : leb a a = true) by (destruct (T a a); trivial). rewrite Ra. cbn [negb List.length].
      rewrite (filter_none (fun d => negb (leb a d)) l2) by (intros b I; apply negb_false_iff; now apply Y). rewrite (filter_every (fun d => leb d a) l1) by exact X. pose proof (filter_most (fun d => negb (leb a d)) l1). cbn. lia.
    + destruct (nth_split_at (rev x) i a H) as (l1 & l2 & E & Ll). assert (Ex : x = rev l2 ++ a :: rev l1) by (rewrite <- (rev_involutive x), E, rev_app_distr; cbn; now rewrite <- app_assoc). rewrite !Cn, Ex. rewrite Ex in So. destruct (sorted_app (rev l2) (rev l1) a So) as (X & Y). unfold count, less. rewrite !filter_app, !app_length. cbn [filter]. assert (Ra : leb a a = true) by (destruct (T a a); trivial). rewrite Ra. cbn [negb List.length].
      rewrite (filter_none (fun d => negb (leb d a)) (rev l2)) by (intros b I; apply negb_false_iff; now apply X). rewrite (filter_every (fun d => leb a d) (rev l1)) by exact Y. pose proof (filter_most (fun d => negb (leb d a)) (rev l1)). rewrite rev_length in *. cbn. lia.
Qed.
Lemma combine_app_seq (l : list A) n s : List.length l = n -> forall q, In q (combine l (seq s n)) -> In (fst q) l.
Proof. intros _ [a k] H. exact (in_combine_l _ _ _ _ H). Qed.
(** C134: with data strictly between the edges, N(<x) starts at the lower edge with 0 and ends at the upper edge with the number of data *)
Theorem C134_edges : forall data lo hi, total_order -> data <> [] -> (forall d, In d data -> less lo d = true /\ less d hi = true) -> exists p, cumulative leb data true None None = Ok p /\
  cumulative leb data true (Some lo) (Some hi) = Ok ((lo, 0) :: p ++ [(hi, List.length data)]).
Proof.
  intros data lo hi (T & Tr & An) Ne In_. unfold cumulative. eexists. split; [reflexivity|]. set (p := combine (sort leb data) (seq 0 (List.length data))).
  assert (Ip : forall q, In q p -> In (fst q) data) by (intros [a k] H; apply in_combine_l in H; eapply Permutation_in; [apply sort_perm|exact H]).
  assert (F1 : filter (fun q => ltb leb lo (fst q)) p = p) by (apply filter_every; intros q Q; apply (In_ _ (Ip q Q))). rewrite F1. cbn [filter fst].
  assert (F2 : filter (fun q => ltb leb (fst q) hi) p = p) by (apply filter_every; intros q Q; apply (In_ _ (Ip q Q))). rewrite F2.
  assert (Lh : ltb leb lo hi = true).
  { destruct data as [|d r]; [contradiction|]. destruct (In_ d (or_introl eq_refl)) as (X & Y). unfold ltb, less in *. apply negb_true_iff in X, Y. apply negb_true_iff. destruct (leb hi lo) eqn:E; trivial. destruct (T lo d) as [Z|Z]; [|congruence]. rewrite (Tr hi lo d E Z) in Y. discriminate. }
  rewrite Lh. pose proof (Permutation_length (sort_perm data)) as Ls. 
  assert (Lp : exists q0 p0 , p = p0 ++ [q0] /\ S (snd q0) = List.length data).
  { destruct (@exists_last _ p) as (p0 & q0 & E); [unfold p; destruct (sort leb data) eqn:Es; [cbn in Ls; destruct data; [contradiction|discriminate]|]; cbn in Ls; rewrite <- Ls; discriminate|]. exists q0, p0. split; [exact E|].
    assert (H : nth_error p (List.length p0) = Some (fst q0, snd q0)) by (rewrite E, nth_error_app2, Nat.sub_diag by lia; now destruct q0). apply nth_combine_seq in H; [|now rewrite Ls]. destruct H as (_ & ->).
    apply (f_equal (@List.length _)) in E. rewrite app_length in E. unfold p in E. rewrite combine_length, seq_length, Ls, Nat.min_id in E. cbn in E. lia. }
  destruct Lp as (q0 & p0 & E & L). cbn [rev]. rewrite E, rev_app_distr. cbn [rev app]. rewrite L. reflexivity.
Qed.
(** C134: frac: the last value is frac *)
Theorem C134_frac : forall f y0 k, k <> 0 -> last (scaled f (y0 ++ [k])) 0%R = f.
Proof.
  intros f y0 k K. unfold scaled. rewrite last_last, map_app. cbn [map]. rewrite last_last. assert (INR k <> 0)%R by (now apply not_0_INR). field. trivial.
Qed.
(** C134: split_histograms: with strictly increasing edges the groups are the values with edges[i] <= edgeval < edges[i+1], in order; together they are each value in the whole range, once *)
Theorem C134_split : forall vals edgevals edges colors styles g, splitHistograms leb vals edgevals edges colors styles = Ok g ->
  List.length g = List.length edges - 1 /\
  forall i l u, nth_error edges i = Some l -> nth_error edges (S i) = Some u -> nth_error g i = Some (map fst (filter (fun q => leb l (snd q) && less (snd q) u) (combine vals edgevals))).
Proof.
  intros vals edgevals edges colors styles g. unfold splitHistograms. destruct (Nat.ltb _ _); [discriminate|]. destruct (_ || _); [discriminate|]. generalize (combine vals edgevals) as data. intros data. revert g. clear.
  induction edges as [|l r IH]; intros g H; cbn [groups] in H; [injection H as <-; split; [reflexivity|]; intros [|i]; discriminate|]. destruct r as [|u r']; [injection H as <-; split; [reflexivity|]; intros i l' u' _ Eu; destruct i; discriminate Eu|].
  destruct (ltb leb l u); [|discriminate]. destruct (groups leb data (u :: r')) as [g'|e|] eqn:G; try discriminate. injection H as <-. destruct (IH g' eq_refl) as (L & N). split; [cbn in *; lia|].
  intros [|i] l' u' El Eu; cbn in El; [cbn in Eu; injection El as <-; injection Eu as <-; reflexivity|]. cbn [nth_error]. now apply N.
Qed.
Theorem C134_split_all : forall vals edgevals edges first final colors styles g, total_order -> splitHistograms leb vals edgevals edges colors styles = Ok g ->
  hd_error edges = Some first -> hd_error (rev edges) = Some final -> Permutation (concat g) (map fst (filter (fun q => leb first (snd q) && less (snd q) final) (combine vals edgevals))).
Proof.
  intros vals edgevals edges first final colors styles g (T & Tr & An). unfold splitHistograms. destruct (Nat.ltb (List.length edges) 2) eqn:L2; [discriminate|]. apply Nat.ltb_ge in L2. destruct (_ || _); [discriminate|]. generalize (combine vals edgevals) as data. intros data. revert first final g L2.
  assert (X : forall edges first final g, List.length edges <> 0 -> groups leb data edges = Ok g -> hd_error edges = Some first -> hd_error (rev edges) = Some final -> leb first final = true /\ Permutation (concat g) (map fst (filter (fun q => leb first (snd q) && less (snd q) final) data))).
  { clear edges. induction edges as [|l r IH]; intros first final g L2 H F La; [now destruct L2|]. cbn in F. injection F as <-. cbn [groups] in H. destruct r as [|u r'].
    - injection H as <-. cbn in La. injection La as <-. split; [now destruct (T l l)|]. cbn. rewrite filter_none; [reflexivity|]. intros q _. unfold less. destruct (leb l (snd q)); reflexivity.
    - destruct (ltb leb l u) eqn:E; [|discriminate]. destruct (groups leb data (u :: r')) as [g'|e|] eqn:G; try discriminate. injection H as <-.
      assert (La' : hd_error (rev (u :: r')) = Some final). { cbn [rev] in La |- *. destruct (rev r' ++ [u]) eqn:Er; [now destruct (rev r')|]. exact La. }
      destruct (IH u final g') as (Le & P); trivial; [discriminate|]. unfold ltb in E. apply negb_true_iff in E. assert (Elu : leb l u = true) by (destruct (T l u); congruence). split; [eauto|].
      cbn [concat]. rewrite P. rewrite <- map_app. apply Permutation_map. clear - T Tr An E Elu Le. induction data as [|q d IHd]; cbn [filter app]; [reflexivity|].
      destruct (leb l (snd q)) eqn:E1; cbn [andb].
      + unfold ltb, less in *. destruct (leb u (snd q)) eqn:E2; cbn [negb andb].
        * destruct (leb final (snd q)) eqn:E3; cbn [negb]; [exact IHd|]. rewrite <- Permutation_middle. now constructor.
        * destruct (leb final (snd q)) eqn:E3; cbn [negb]; [rewrite (Tr u final (snd q) Le E3) in E2; discriminate|]. cbn [app]. now constructor.
      + destruct (leb u (snd q)) eqn:E2; cbn [andb]; [rewrite (Tr l u (snd q) Elu E2) in E1; discriminate|]. exact IHd. }
  intros first final g L2 H F La. apply (X edges first final g); trivial. lia.
Qed.
(** it is a ValueError exactly for fewer than two edges, edges that do not increase strictly, other numbers of colors or styles, or different lengths *)
Theorem C134_split_errors : forall vals edgevals edges colors styles,
  (exists g, splitHistograms leb vals edgevals edges colors styles = Ok g) \/ splitHistograms leb vals edgevals edges colors styles = Raise ValueError.
Proof.
  intros vals edgevals edges colors styles. unfold splitHistograms. destruct (Nat.ltb _ _); [now right|]. destruct (_ || _); [now right|]. generalize (combine vals edgevals). intros data. induction edges as [|l r IH]; cbn [groups]; [left; eauto|]. destruct r as [|u r']; [left; eauto|]. destruct (ltb leb l u); [|now right]. destruct IH as [(g & ->)|E]; [left; eauto|]. rewrite E. now right.
Qed.
Theorem C134_split_accepts : forall vals edgevals edges colors styles,
  (exists g, splitHistograms leb vals edgevals edges colors styles = Ok g) <->
  2 <= List.length edges /\ List.length vals = List.length edgevals /\ (forall k, colors = Some k \/ styles = Some k -> k + 1 = List.length edges) /\
  (forall i l u, nth_error edges i = Some l -> nth_error edges (S i) = Some u -> less l u = true).
Proof.
  intros vals edgevals edges colors styles. unfold splitHistograms. 
  assert (X : forall data e, (exists g, groups leb data e = Ok g) <-> forall i l u, nth_error e i = Some l -> nth_error e (S i) = Some u -> less l u = true).
  { intros data. induction e as [|l r IH]; cbn [groups]; [split; [intros _ [|i]; discriminate|eauto]|]. destruct r as [|u r']; [split; [intros _ i l' u' _ Eu; destruct i; discriminate Eu|eauto]|]. change (ltb leb l u) with (less l u). destruct (less l u) eqn:E.
    - split.
      + intros (g & H) [|i] l' u' El Eu; [cbn in El, Eu; congruence|]. apply (proj1 IH) with (i := i); trivial. destruct (groups leb data (u :: r')); try discriminate. eauto.
      + intros H. destruct (proj2 IH) as (g & ->); [intros i l' u' El Eu; now apply (H (S i))|eauto].
    - split; [intros (g & H); discriminate|]. intros H. specialize (H 0 l u eq_refl eq_refl). congruence. }
  destruct (Nat.ltb (List.length edges) 2) eqn:L2; [apply Nat.ltb_lt in L2; split; [intros (g & H); discriminate|lia]|]. apply Nat.ltb_ge in L2.
  destruct (Nat.eqb_spec (List.length vals) (List.length edgevals)) as [Ev|Ev]; cbn [negb]; [|rewrite orb_true_r; split; [intros (g & H); discriminate|tauto]]. rewrite orb_false_r.
  set (wrong := fun o : option nat => match o with Some k => negb (Nat.eqb (List.length edges - 1) k) | None => false end). assert (Wr : forall o, wrong o = false <-> forall k, o = Some k -> k + 1 = List.length edges).
  { intros [k|]; unfold wrong; [|split; [discriminate|reflexivity]]. rewrite negb_false_iff, Nat.eqb_eq. split; [intros H k' [= <-]; lia|intros H; specialize (H k eq_refl); lia]. }
  change ((exists g, (if wrong colors || wrong styles then Raise ValueError else groups leb (combine vals edgevals) edges) = Ok g) <-> 2 <= List.length edges /\ List.length vals = List.length edgevals /\ (forall k, colors = Some k \/ styles = Some k -> k + 1 = List.length edges) /\ (forall i l u, nth_error edges i = Some l -> nth_error edges (S i) = Some u -> less l u = true)).
  destruct (wrong colors) eqn:C1; [split; [intros (g & H); discriminate|]; intros (_ & _ & H & _); assert (W : wrong colors = false) by (apply Wr; intros; apply H; now left); congruence|].
  destruct (wrong styles) eqn:C2; [split; [intros (g & H); discriminate|]; intros (_ & _ & H & _); assert (W : wrong styles = false) by (apply Wr; intros; apply H; now right); congruence|].
  cbn [orb]. rewrite X. split; [intros H; repeat split; trivial; intros k [K|K]; [exact (proj1 (Wr colors) C1 k K)|exact (proj1 (Wr styles) C2 k K)]|tauto].
Qed.
End Proofs.

(** C134: square_subplot_dims: enough panels, no empty row, and not more rows than columns; the columns are the fewest whose square is enough *)
Theorem C134_dims : forall n, exists r c, squareDims n = Some (r, c) /\ n <= r * c /\ r <= c /\ (0 < n -> (r - 1) * c < n) /\ (forall k, n <= k * k -> c <= k).
Proof.
  intros n. unfold squareDims. set (c := Nat.sqrt_up n). assert (Hc : n <= c * c) by (destruct (Nat.eq_dec n 0); [lia|]; pose proof (Nat.sqrt_up_spec n); fold c in H; lia).
  assert (Mn : forall k, n <= k * k -> c <= k) by (intros k K; rewrite <- (Nat.sqrt_up_square k); [apply Nat.sqrt_up_le_mono; exact K|lia]).
  assert (X : forall fuel r, c <= r + fuel -> r <= c -> (0 < n -> (r - 1) * c < n) -> exists r', addRows fuel c r n = Some r' /\ n <= r' * c /\ r' <= c /\ (0 < n -> (r' - 1) * c < n)).
  { induction fuel as [|f IH]; intros r F R P; cbn [addRows]; destruct (Nat.ltb_spec (c * r) n) as [L|L].
    - assert (r = c) by lia. subst r. lia.
    - exists r. split; [reflexivity|]. split; [lia|auto].
    - apply IH; [lia| |intros _; replace (S r - 1) with r by lia; lia]. destruct (Nat.eq_dec r c); [subst r; lia|lia].
    - exists r. split; [reflexivity|]. split; [lia|auto]. }
  destruct (X (S n) 0) as (r & E & H); [unfold c; destruct n; [cbn; lia|]; pose proof (Nat.sqrt_up_le_lin (S n)); lia|lia|intros; cbn; lia|]. rewrite E. exists r, c. split; [reflexivity|]. destruct H as (H1 & H2 & H3). repeat split; trivial.
Qed.
(** ** Refuted *)
(** data below the lower edge are not ignored: they are counted *)
Theorem C134_below_refuted : cumulative Nat.leb [1; 2; 5; 7] true (Some 3) None = Ok [(3, 0); (5, 2); (7, 3)].
Proof. reflexivity. Qed.
(** N(>x) with both edges does not start at the upper edge, and with one edge it is an error *)
Theorem C134_greater_refuted : cumulative Nat.leb [4; 5; 7] false (Some 3) (Some 9) = Ok [(7, 0); (5, 1); (4, 2); (3, 3)] /\ forall data lo hi, (exists e, cumulative Nat.leb data false (Some lo) None = Raise e) /\ exists e, cumulative Nat.leb data false None (Some hi) = Raise e.
Proof. split; [reflexivity|]. intros data lo hi. split; unfold cumulative; eauto. Qed.
(** no data between the edges: the count at the upper edge is 1 *)
Theorem C134_empty_refuted : cumulative Nat.leb [] true (Some 3) (Some 9) = Ok [(3, 0); (9, 1)].
Proof. reflexivity. Qed.
Example ex_order : total_order Nat.leb.
Proof. repeat split; intros a b; rewrite ?Nat.leb_le; try intros c; rewrite ?Nat.leb_le; lia. Qed.
Example ex_plots : splitHistograms Nat.leb [10; 20; 30; 40] [1; 5; 3; 9] [0; 3; 6] (Some 2) None = Ok [[10]; [20; 30]] /\ squareDims 7 = Some (3, 3) /\ cumulative Nat.leb [4; 2; 4] true None None = Ok [(2, 0); (4, 1); (4, 2)].
Proof. vm_compute. repeat split. Qed.
