(** * IoColumns: fixed-column files and pickles (C77-C79) *)
From Coq Require Import List Bool ZArith String Ascii Arith Lia Sorted Permutation.
From Verif Require Import PyBase PubModel PubComments IoModel.
Import ListNotations.

(** ** C77: columns *)
Inductive colop := Add (n : nat) (c : col) | Del (n : nat).
Definition cstep (p : parser) (o : colop) : parser := match (match o with Add n c => addColumn n c p | Del n => delColumn n p end) with Ok p' => p' | _ => p end.
Definition crun (l : list colop) (p : parser) : parser := fold_left cstep l p.
(** Specification *)
Definition covers (c : col) (x : Z) : Prop := (lower c <= x <= upper c)%Z.
Definition column (p : parser) (n : nat) (c : col) : Prop := In (n, c) (cols p).

Lemma look_in {A} n (l : list (nat * A)) : NoDup (map fst l) -> forall d, look n l = Some d <-> In (n, d) l.
Proof.
  induction l as [|[k e] l IH]; intros N d; cbn [look map fst] in *; [split; [discriminate|intros []]|]. inversion N as [|? ? N1 N2]; subst. destruct (Nat.eqb_spec k n) as [->|K].
  - split; [intros H; injection H as ->; now left|]. intros [H|H]; [congruence|]. exfalso. apply N1. now apply (in_map fst) in H.
  - rewrite IH by trivial. split; [now right|]. intros [H|H]; [congruence|trivial].
Qed.
Lemma put_in {A} n (c : A) l m d : NoDup (map fst l) -> (In (m, d) (put n c l) <-> (m = n /\ d = c) \/ (m <> n /\ In (m, d) l)).
Proof.
  induction l as [|[k e] l IH]; intros N; cbn [put map fst] in *.
  - split; [intros [H|[]]; left; split; congruence|intros [[-> ->]|[_ []]]; now left].
  - inversion N as [|? ? N1 N2]; subst. destruct (Nat.eqb_spec k n) as [->|K].
    + split.
      * intros [H|H]; [left; split; congruence|]. right. split; [|now right]. intros ->. apply N1. now apply (in_map fst) in H.
      * intros [[-> ->]|[M [H|H]]]; [now left|congruence|now right].
    + cbn [In]. rewrite IH by trivial. split; [intros [H|[H|H]]|intros [H|[M [H|H]]]]; auto; try tauto. right. split; [congruence|now left].
Qed.
Lemma put_nodup {A} n (c : A) l : NoDup (map fst l) -> NoDup (map fst (put n c l)).
Proof.
  intros N. assert (G : forall m, In m (map fst (put n c l)) -> m = n \/ In m (map fst l)). { clear N. induction l as [|[k e] l IH]; intros m; cbn [put]; [intros [<-|[]]; now left|]. destruct (Nat.eqb_spec k n) as [->|K]; cbn [map fst In]; [tauto|]. intros [H|H]; [tauto|]. destruct (IH m H); tauto. }
  induction l as [|[k e] l IH]; cbn [put]; [repeat constructor; intros []|]. inversion N as [|? ? N1 N2]; subst. destruct (Nat.eqb_spec k n) as [->|K]; cbn [map fst]; [constructor; trivial|]. constructor; [|apply IH; trivial].
  - intros H. assert (k = n \/ In k (map fst l)) as [Q|Q]; [|congruence|contradiction]. clear -H. induction l as [|[j e] l IH]; cbn [put] in H; [destruct H as [<-|[]]; now left|]. destruct (Nat.eqb_spec j n) as [->|J]; cbn [map fst In] in *; [tauto|]. destruct H; [tauto|]. destruct (IH H); tauto.
  - clear -G N1. intros m H. clear G. induction l as [|[j e'] l IH]; cbn [put] in H; [destruct H as [<-|[]]; now left|]. destruct (Nat.eqb_spec j n) as [->|J]; cbn [map fst In] in *; [tauto|]. destruct H; [tauto|]. destruct (IH ltac:(tauto) H); tauto.
Qed.
Lemma del_in {A} n (l : list (nat * A)) m d : NoDup (map fst l) -> (In (m, d) (del n l) <-> m <> n /\ In (m, d) l).
Proof.
  induction l as [|[k e] l IH]; intros N; cbn [del map fst] in *; [cbn; tauto|]. inversion N as [|? ? N1 N2]; subst. destruct (Nat.eqb_spec k n) as [->|K].
  - split; [intros H; split; [intros ->; apply N1; now apply (in_map fst) in H|now right]|]. intros [M [H|H]]; [congruence|trivial].
  - cbn [In]. rewrite IH by trivial. split; [intros [H|[M H]]; [split; [congruence|now left]|split; [trivial|now right]]|]. intros [M [H|H]]; [now left|now right].
Qed.
Lemma del_nodup {A} n (l : list (nat * A)) : NoDup (map fst l) -> NoDup (map fst (del n l)).
Proof.
  induction l as [|[k e] l IH]; intros N; cbn [del map fst] in *; [trivial|]. inversion N as [|? ? N1 N2]; subst. destruct (Nat.eqb k n); [trivial|]. cbn [map fst]. constructor; [|auto]. intros H. apply N1. clear -H. induction l as [|[j e'] l IH]; cbn [del] in H; [destruct H|]. destruct (Nat.eqb j n); [now right|]. destruct H as [H|H]; [now left|right; auto].
Qed.
Definition apart (c d : col) : Prop := ~ (lower c <= upper d /\ lower d <= upper c)%Z.
Definition good (p : parser) : Prop := NoDup (map fst (cols p)) /\ forall n m c d, n <> m -> column p n c -> column p m d -> apart c d.
Lemma overlaps_spec lo hi n p : overlaps lo hi n p = false <-> forall m d, m <> n -> column p m d -> ~ (lo <= upper d /\ lower d <= hi)%Z.
Proof.
  unfold overlaps, column. split.
  - intros H m d M I [A B]. assert (T : existsb (fun '(k, c) => negb (Nat.eqb k n) && (lo <=? upper c)%Z && (lower c <=? hi)%Z) (cols p) = true); [|congruence]. apply existsb_exists. exists (m, d). split; [trivial|]. destruct (Nat.eqb_spec m n); [contradiction|]. apply Z.leb_le in A, B. now rewrite A, B.
  - intros H. destruct (existsb _ (cols p)) eqn:E; [|reflexivity]. apply existsb_exists in E. destruct E as ([m d] & I & E). destruct (Nat.eqb_spec m n) as [|M]; [discriminate|]. apply andb_prop in E. destruct E as [E1 E2]. cbn [negb andb] in E1. apply Z.leb_le in E1, E2. exfalso. eapply H; eauto.
Qed.
Lemma add_good n c p p' : good p -> addColumn n c p = Ok p' -> good p' /\ (forall m d, column p' m d <-> (m = n /\ d = c) \/ (m <> n /\ column p m d)) /\ skiprows p' = skiprows p /\ firstcol p' = firstcol p /\ commentchars p' = commentchars p.
Proof.
  intros [N A]. unfold addColumn. destruct (overlaps (lower c) (upper c) n p) eqn:O; [discriminate|]. intros H. injection H as <-. rewrite overlaps_spec in O. assert (C : forall m d, In (m, d) (put n c (cols p)) <-> (m = n /\ d = c) \/ (m <> n /\ column p m d)) by (intros; now apply put_in).
  split; [|split; [exact C|repeat split]]. split; [now apply put_nodup|]. intros m k d e Nm Im Ik. unfold column in Im, Ik. cbn [cols] in Im, Ik. rewrite C in Im, Ik. unfold apart. destruct Im as [[-> ->]|[M Im]], Ik as [[-> ->]|[K Ik]]; [congruence|exact (O k e K Ik)| |exact (A m k d e Nm Im Ik)]. specialize (O m d M Im). lia.
Qed.
Lemma del_good n p p' : good p -> delColumn n p = Ok p' -> good p' /\ (forall m d, column p' m d <-> m <> n /\ column p m d).
Proof.
  intros [N A]. unfold delColumn. destruct (look n (cols p)); [|discriminate]. intros H. injection H as <-. assert (C : forall m d, In (m, d) (del n (cols p)) <-> m <> n /\ column p m d) by (intros; now apply del_in). split; [|exact C]. split; [now apply del_nodup|]. intros m k d e Nm Im Ik. unfold column in Im, Ik. cbn [cols] in Im, Ik. rewrite C in Im, Ik. now apply (A m k d e).
Qed.
Lemma run_good l skip first com : good (crun l (newParser skip first com)).
Proof.
  unfold crun. assert (G : forall p, good p -> good (fold_left cstep l p)). { induction l as [|o l IH]; intros p H; [exact H|]. cbn [fold_left]. apply IH. unfold cstep. destruct o as [n c|n]; [destruct (addColumn n c p) eqn:E|destruct (delColumn n p) eqn:E]; trivial; [eapply add_good; eauto|eapply del_good; eauto]. } apply G. split; [constructor|]. intros n m c d _ [].
Qed.
(** after any history of adding and deleting columns, no character belongs to two columns *)
Theorem C77_disjoint : forall l skip first com n m c d x, let p := crun l (newParser skip first com) in column p n c -> column p m d -> covers c x -> covers d x -> n = m /\ c = d.
Proof.
  intros l skip first com n m c d x p Hc Hd Cx Dx. destruct (run_good l skip first com) as [N A]. fold p in N, A. destruct (Nat.eq_dec n m) as [->|M].
  - split; [reflexivity|]. apply (proj2 (look_in m _ N c)) in Hc. apply (proj2 (look_in m _ N d)) in Hd. congruence.
  - exfalso. apply (A n m c d M Hc Hd). unfold covers in *. lia.
Qed.
(** a column is accepted exactly if it shares no character with another one; it replaces the column of its name *)
Theorem C77_add : forall l skip first com n c, let p := crun l (newParser skip first com) in (lower c <= upper c)%Z -> (forall m d, column p m d -> lower d <= upper d)%Z ->
  ((exists p', addColumn n c p = Ok p') <-> forall m d x, m <> n -> column p m d -> covers c x -> covers d x -> False) /\ (forall p', addColumn n c p = Ok p' -> forall m d, column p' m d <-> (m = n /\ d = c) \/ (m <> n /\ column p m d)) /\
  (forall e, addColumn n c p = Raise e -> e = ValueError).
Proof.
  intros l skip first com n c p L W. destruct (run_good l skip first com) as [N A]. fold p in N, A. split; [|split; [intros p' H; now apply add_good|unfold addColumn; destruct (overlaps _ _ _ _); congruence]]. unfold addColumn. destruct (overlaps (lower c) (upper c) n p) eqn:O.
  - split; [intros [p' H]; discriminate|]. intros H. exfalso. rewrite (proj2 (overlaps_spec _ _ _ _)) in O; [discriminate|]. intros m d M I [B1 B2]. specialize (W m d I). apply (H m d (Z.max (lower c) (lower d)) M I); unfold covers; lia.
  - split; [|eauto]. intros _ m d x M I C D. rewrite overlaps_spec in O. apply (O m d M I). unfold covers in *. lia.
Qed.
(** ** parsing *)
(** Specification: a line with data; the characters of a column (the first one of the line has the number [first]); the value *)
Definition space (a : ascii) : Prop := is_space a = true.
Definition data_line (com row : str) : Prop := exists pre a post, row = pre ++ a :: post /\ Forall space pre /\ ~ space a /\ ~ In a com.
Definition text_at (first : Z) (c : col) (row v : str) : Prop := forall k, nth_error v k = if (Z.of_nat k <=? upper c - lower c)%Z then nth_error row (Z.to_nat (lower c - first) + k) else None.
Definition converted (c : col) (v w : str) : Prop := match convs c with None => w = v | Some l => In (v, w) l \/ (~ In v (map fst l) /\ w = v) end.
Definition value (first : Z) (c : col) (row : str) (o : option str) : Prop := exists v w, text_at first c row v /\ converted c v w /\ ((Forall space w /\ o = None) \/ (~ Forall space w /\ o = Some w)).

Lemma lstrip_cases s : (Forall space s /\ lstrip s = []) \/ exists pre a post, s = pre ++ a :: post /\ Forall space pre /\ ~ space a /\ lstrip s = a :: post.
Proof.
  unfold lstrip, space. induction s as [|a s IH]; [left; now split|]. cbn [span]. destruct (is_space a) eqn:E.
  - destruct (span is_space s) as [x y] eqn:Sp. cbn [snd] in *. destruct IH as [[F ->]|(pre & b & post & -> & F & B & ->)]; [left; split; [now constructor|reflexivity]|]. right. exists (a :: pre), b, post. repeat split; trivial. now constructor.
  - right. exists [], a, s. repeat split; [constructor|congruence].
Qed.
Lemma rstrip_empty s : rstrip s = [] <-> Forall space s.
Proof.
  unfold rstrip. destruct (lstrip_cases (rev s)) as [[F E]|(pre & a & post & E & F & A & E')]; unfold lstrip in *.
  - rewrite E. split; [intros _; apply Forall_rev in F; now rewrite rev_involutive in F|reflexivity].
  - rewrite E'. split; [cbn [rev]; intros H; apply app_eq_nil in H; destruct H; discriminate|]. intros G. apply Forall_rev in G. rewrite E, Forall_app in G. destruct G as [_ G]. inversion G. contradiction.
Qed.
Lemma rstrip_head a s : ~ space a -> exists t, rstrip (a :: s) = a :: t.
Proof.
  intros A. unfold rstrip. cbn [rev]. destruct (lstrip_cases (rev s ++ [a])) as [[F E]|(pre & b & post & E & F & B & E')]; unfold lstrip in *.
  - apply Forall_app in F. destruct F as [_ F]. inversion F. contradiction.
  - rewrite E'. assert (P : exists t, b :: post = t ++ [a]). { destruct (exists_last (l := b :: post)) as (t & z & Z); [discriminate|]. exists t. rewrite Z in E. rewrite app_assoc in E. apply app_inj_tail in E. destruct E as [_ <-]. exact Z. } destruct P as (t & ->). rewrite rev_app_distr. cbn [rev app]. eauto.
Qed.
Lemma blank_spec v : blank v = true <-> Forall space v.
Proof.
  unfold blank, strip. destruct (lstrip_cases v) as [[F E]|(pre & a & post & E & F & A & E')].
  - rewrite E. cbn. tauto.
  - rewrite E'. destruct (rstrip_head a post A) as (t & ->). split; [discriminate|]. intros G. rewrite E, Forall_app in G. destruct G as [_ G]. inversion G. contradiction.
Qed.
Lemma ascii_eqb_spec a c : (a =a c) = true <-> a = c.
Proof. apply Ascii.eqb_eq. Qed.
Definition keep (com row : str) : bool := match strip row with [] => false | a :: _ => negb (existsb (fun c => a =a c) com) end.
Lemma keep_spec com row : keep com row = true <-> data_line com row.
Proof.
  unfold keep, strip, data_line. destruct (lstrip_cases row) as [[F E]|(pre & a & post & E & F & A & E')].
  - rewrite E. cbn [rstrip]. split; [discriminate|]. intros (pre & a & post & -> & P & Na & _). apply Forall_app in F. destruct F as [_ F]. inversion F. contradiction.
  - rewrite E'. destruct (rstrip_head a post A) as (t & ->). rewrite negb_true_iff. assert (X : existsb (fun c => a =a c) com = false <-> ~ In a com). { split; [intros H I|intros H; destruct (existsb _ com) eqn:X; [|reflexivity]; exfalso; apply H; apply existsb_exists in X; destruct X as (c & I & X); apply ascii_eqb_spec in X; now subst]. assert (T : existsb (fun c => a =a c) com = true) by (apply existsb_exists; exists a; split; [trivial|now apply ascii_eqb_spec]). congruence. }
    rewrite X. split; [intros H; exists pre, a, post; auto|]. intros (pre' & a' & post' & E2 & P & Na & Nc). assert (a' = a); [|now subst]. clear -E E2 F P A Na. rewrite E in E2. clear E. revert pre' E2 P. induction pre as [|x pre IH]; intros [|y pre'] E2 P; cbn in E2.
    + congruence. + injection E2 as -> _. inversion P. contradiction. + injection E2 as -> _. inversion F. contradiction. + injection E2 as _ E2. inversion F; inversion P; subst. eapply IH; eauto.
Qed.
Lemma rows_filter p lines i : rows_from p i lines = filter (keep (commentchars p)) (skipn (skiprows p - i) lines).
Proof.
  revert i. induction lines as [|r l IH]; intros i; cbn [rows_from]; [now rewrite skipn_nil|]. unfold validrow. rewrite IH. fold (keep (commentchars p) r). destruct (Nat.leb_spec (skiprows p) i) as [K|K].
  - replace (skiprows p - i)%nat with 0%nat by lia. replace (skiprows p - S i)%nat with 0%nat by lia. cbn [skipn filter andb]. destruct (keep (commentchars p) r); reflexivity.
  - replace (skiprows p - i)%nat with (S (skiprows p - S i)) by lia. reflexivity.
Qed.
Lemma nth_error_firstn {A} (l : list A) n k : nth_error (firstn n l) k = if Nat.ltb k n then nth_error l k else None.
Proof. revert l k. induction n as [|n IH]; intros [|x l] [|k]; cbn [firstn nth_error]; try reflexivity; [destruct (Nat.ltb (S k) (S n)); reflexivity|]. rewrite IH. reflexivity. Qed.
Lemma nth_error_skipn {A} (l : list A) n k : nth_error (skipn n l) k = nth_error l (n + k).
Proof. revert l. induction n as [|n IH]; intros [|x l]; cbn [skipn nth_error Nat.add]; try reflexivity; [now destruct k|apply IH]. Qed.
Lemma slice_spec first c row : (first <= lower c <= upper c)%Z -> text_at first c row (slice (lower c - first) (upper c - first + 1) row).
Proof.
  intros H k. unfold slice, clip. destruct (Z.ltb_spec (lower c - first) 0); [lia|]. destruct (Z.ltb_spec (upper c - first + 1) 0); [lia|]. rewrite nth_error_firstn, nth_error_skipn. set (a := Z.to_nat (lower c - first)). replace (Z.to_nat (upper c - first + 1)) with (a + Z.to_nat (upper c - lower c) + 1)%nat by lia. set (w := Z.to_nat (upper c - lower c)). set (len := List.length row).
  replace (Z.of_nat k <=? upper c - lower c)%Z with (Nat.leb k w) by (destruct (Nat.leb_spec k w), (Z.leb_spec (Z.of_nat k) (upper c - lower c)); trivial; lia). destruct (Nat.leb_spec k w), (Nat.ltb_spec k (Nat.min (a + w + 1) len - Nat.min a len)); try lia.
  - f_equal. lia.
  - symmetry. apply nth_error_None. fold len. lia.
  - reflexivity.
Qed.
Lemma str_eqb_spec a b : str_eqb a b = true <-> a = b.
Proof.
  revert b. induction a as [|x a IH]; intros [|y b]; cbn [str_eqb]; split; try discriminate; try reflexivity.
  - intros H. apply andb_prop in H. destruct H as [H1 H2]. apply ascii_eqb_spec in H1. apply IH in H2. congruence.
  - intros H. injection H as -> ->. apply andb_true_intro. split; [now apply ascii_eqb_spec|now apply IH].
Qed.
Lemma conv_spec c v : converted c v (match convs c with None => v | Some l => get_conv v l end).
Proof.
  unfold converted. destruct (convs c) as [l|]; [|reflexivity]. induction l as [|[k w] l IH]; cbn [get_conv map fst]; [right; split; [intros []|reflexivity]|]. destruct (str_eqb k v) eqn:E; [apply str_eqb_spec in E; subst; left; now left|]. destruct IH as [I|[I ->]]; [left; now right|]. right. split; [|reflexivity]. intros [->|X]; [|contradiction]. assert (str_eqb v v = true) by now apply str_eqb_spec. congruence.
Qed.
Lemma insert_perm x l : Permutation (insert x l) (x :: l).
Proof. induction l as [|y l IH]; cbn [insert]; [reflexivity|]. destruct (_ <=? _)%Z; [reflexivity|]. rewrite IH. apply perm_swap. Qed.
Lemma sort_perm l : Permutation (sort l) l.
Proof. induction l as [|x l IH]; cbn [sort]; [reflexivity|]. rewrite insert_perm. now constructor. Qed.
Lemma insert_sorted x l : StronglySorted (fun x y => lower (snd x) <= lower (snd y))%Z l -> StronglySorted (fun x y => lower (snd x) <= lower (snd y))%Z (insert x l).
Proof.
  induction 1 as [|y l H IH F]; cbn [insert]; [repeat constructor|]. destruct (Z.leb_spec (lower (snd x)) (lower (snd y))).
  - constructor; [now constructor|]. constructor; [trivial|]. eapply Forall_impl; [|exact F]. cbn. intros; lia.
  - constructor; [exact IH|]. eapply Permutation_Forall; [symmetry; apply insert_perm|]. constructor; [lia|trivial].
Qed.
Lemma sort_sorted l : StronglySorted (fun x y => lower (snd x) <= lower (snd y))%Z (sort l).
Proof. induction l as [|x l IH]; cbn [sort]; [constructor|]. now apply insert_sorted. Qed.
Lemma Forall2_map_ {A B C} (f : A -> B) (g : A -> C) (P : B -> C -> Prop) l : (forall x, In x l -> P (f x) (g x)) -> Forall2 P (map f l) (map g l).
Proof. induction l as [|x l IH]; intros H; cbn [map]; constructor; [apply H; now left|apply IH; intros; apply H; now right]. Qed.
Lemma run_settings l skip first com : let p := crun l (newParser skip first com) in skiprows p = skip /\ firstcol p = first /\ commentchars p = com.
Proof.
  unfold crun. assert (G : forall p, skiprows p = skip /\ firstcol p = first /\ commentchars p = com -> let q := fold_left cstep l p in skiprows q = skip /\ firstcol q = first /\ commentchars q = com). { induction l as [|o l IH]; intros p H; [exact H|]. cbn [fold_left]. apply IH. unfold cstep. destruct o as [n c|n]; unfold addColumn, delColumn; [destruct (overlaps _ _ _ _)|destruct (look _ _)]; exact H. } now apply G.
Qed.
(** parsing gives every column, ordered by position, one value for each line with data *)
Theorem C77_parse : forall l skip first com lines, let p := crun l (newParser skip first com) in cols p <> [] -> (forall n c, column p n c -> first <= lower c <= upper c)%Z ->
  exists out (cs : list (nat * col)) (rows : list str), parseFile p lines = Ok out /\
  Permutation cs (cols p) /\ StronglySorted (fun x y => lower (snd x) <= lower (snd y))%Z cs /\
  (exists f, (forall r, f r = true <-> data_line com r) /\ rows = filter f (skipn skip lines)) /\
  Forall2 (fun o x => fst o = fst x /\ Forall2 (fun v r => value first (snd x) r v) (snd o) rows) out cs.
Proof.
  intros l skip first com lines p N W. destruct (run_settings l skip first com) as (S & F & C). fold p in S, F, C. unfold parseFile. destruct (cols p) as [|x0 xs] eqn:E; [contradiction|]. rewrite <- E in *. eexists. exists (sort (cols p)), (rows_from p 0 lines). split; [reflexivity|]. split; [apply sort_perm|]. split; [apply sort_sorted|]. split.
  - exists (keep com). split; [apply keep_spec|]. rewrite rows_filter, Nat.sub_0_r, S, C. reflexivity.
  - rewrite <- (map_id (sort (cols p))) at 2. apply Forall2_map_. intros [n c] I. cbn [fst snd]. split; [reflexivity|]. assert (Ic : column p n c) by (unfold column; eapply Permutation_in; [apply sort_perm|exact I]). rewrite <- (map_id (rows_from p 0 lines)) at 2. apply Forall2_map_. intros r _. cbv zeta. exists (slice (lower c - first) (upper c - first + 1) r), (cell p c r). split; [apply slice_spec; exact (W n c Ic)|]. split; [unfold cell; rewrite F; apply conv_spec|]. destruct (blank (cell p c r)) eqn:B; [left|right]; (split; [|reflexivity]); [now apply blank_spec|]. rewrite <- blank_spec. congruence.
Qed.
(** an entry laid out at the place of its column is read back *)
Theorem C77_layout : forall first c pre text post, convs c = None -> (first <= lower c <= upper c)%Z -> Z.of_nat (List.length pre) = (lower c - first)%Z -> Z.of_nat (List.length text) = (upper c - lower c + 1)%Z ->
  forall o, value first c (pre ++ text ++ post) o <-> ((Forall space text /\ o = None) \/ (~ Forall space text /\ o = Some text)).
Proof.
  intros first c pre text post Cv H Lp Lt o. assert (T : forall v, text_at first c (pre ++ text ++ post) v <-> v = text).
  { assert (T0 : text_at first c (pre ++ text ++ post) text). { intros k. replace (Z.to_nat (lower c - first)) with (List.length pre) by lia. rewrite nth_error_app2 by lia. replace (List.length pre + k - List.length pre)%nat with k by lia. destruct (Z.leb_spec (Z.of_nat k) (upper c - lower c)); [now rewrite nth_error_app1 by lia|]. apply nth_error_None. lia. }
    intros v. split; [|intros ->; exact T0]. intros E. assert (X : forall k, nth_error v k = nth_error text k) by (intros k; now rewrite E, T0). clear -X. revert text X. induction v as [|a v IH]; intros [|b t] X; [reflexivity|specialize (X 0%nat); discriminate|specialize (X 0%nat); discriminate|]. f_equal; [specialize (X 0%nat); cbn in X; congruence|]. apply IH. intros k. exact (X (S k)). }
  unfold value, converted. rewrite Cv. split.
  - intros (v & w & A & -> & B). apply T in A. now subst.
  - intros B. exists text, text. split; [now apply T|]. split; [reflexivity|exact B].
Qed.
(** the end of the line is read as part of a column that is longer than the line: the value has a newline, and is not converted *)
Theorem C77_newline_refuted : exists p line c, column p 0 c /\ convs c = Some [(L "--", L "")] /\ line = L "--" ++ [nl] /\ parseFile p [line] = Ok [(0%nat, [Some line])].
Proof.
  exists (Parser [(0%nat, Col 1 3 (Some [(L "--", L "")]))] 0 1 (L "#")). eexists. eexists. split; [left; reflexivity|]. split; [reflexivity|]. split; reflexivity.
Qed.
Example C77_nonvacuous : exists p, p = crun [Add 0 (Col 1 4 None); Add 1 (Col 6 8 None); Add 2 (Col 4 5 None)] (newParser 0 1 (L "#")) /\ cols p = [(0%nat, Col 1 4 None); (1%nat, Col 6 8 None)] /\
  parseFile p [L "# comment"; L "1239 abc"; []; L "     xyz"] = Ok [(0%nat, [Some (L "1239"); None]); (1%nat, [Some (L "abc"); Some (L "xyz")])].
Proof. eexists. split; [reflexivity|]. split; reflexivity. Qed.
