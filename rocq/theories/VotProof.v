(** * VotProof: reading VOTables (C100) *)
From Coq Require Import List Bool Arith Ascii String Lia.
From Verif Require Import PyBase PubModel AngStrModel AngStrRead RegModel RegProof VotModel VotSpec.
Import ListNotations.

(** ** Dictionaries built up *)
Lemma put_fold_out {V} (l : list (str * V)) k : forall e, ~ In k (map fst l) -> assoc k (fold_left (fun e p => put (fst p) (snd p) e) l e) = assoc k e.
Proof. induction l as [|(k0, v0) l IH]; intros e H; [reflexivity|]. cbn [fold_left map fst snd In] in *. rewrite IH by tauto. apply assoc_put_other. intros ->. tauto. Qed.
Lemma put_fold_in {V} (l : list (str * V)) k v : forall e, NoDup (map fst l) -> In (k, v) l -> assoc k (fold_left (fun e p => put (fst p) (snd p) e) l e) = Some v.
Proof.
  induction l as [|(k0, v0) l IH]; intros e N H; [contradiction|]. cbn [fold_left map fst snd] in *. inversion N as [|? ? N1 N2]; subst. destruct H as [[= -> ->]|H]; [|now apply IH].
  rewrite put_fold_out by exact N1. apply assoc_put_same.
Qed.
Lemma put_fold_keys {V} (l : list (str * V)) : forall e k, has k (fold_left (fun e p => put (fst p) (snd p) e) l e) = true <-> has k e = true \/ In k (map fst l).
Proof.
  induction l as [|(k0, v0) l IH]; intros e k; cbn [fold_left map fst snd In]; [tauto|]. rewrite IH, has_put, orb_true_iff, eqs. intuition congruence.
Qed.
Lemma assoc_none {V} (l : list (str * V)) k : assoc k l = None <-> ~ In k (map fst l).
Proof. rewrite <- has_in. unfold has. destruct (assoc k l); intuition congruence. Qed.
Lemma filter_keys {V} (q : str -> bool) (l : list (str * V)) k : In k (map fst (filter (fun p => q (fst p)) l)) -> In k (map fst l).
Proof. rewrite !in_map_iff. intros (p & E & H). apply filter_In in H. exists p. tauto. Qed.
Lemma filter_nodup {V} (q : str -> bool) (l : list (str * V)) : NoDup (map fst l) -> NoDup (map fst (filter (fun p => q (fst p)) l)).
Proof. induction l as [|(k, v) l IH]; cbn [map fst filter]; intros H; [constructor|]. inversion H as [|? ? H1 H2]; subst. destruct (q k); [|now apply IH]. cbn [map fst]. constructor; [|now apply IH]. intros X. apply H1. now apply (filter_keys q). Qed.
Lemma own_spec k : own k = true <-> In k [L "name"; L "arraysize"; L "datatype"].
Proof. unfold own. rewrite !orb_true_iff, !eqs. cbn [In]. intuition congruence. Qed.
Lemma extras_says n d : described n d -> says n (extras n d).
Proof.
  intros D. unfold says, extras. split.
  - exists d. split; [exact D|]. intros A. rewrite put_fold_out; [reflexivity|]. apply assoc_none in A. intros X. apply A. now apply (filter_keys (fun k => negb (own k))).
  - intros k K N. destruct (assoc k (attrs n)) as [v|] eqn:A.
    + apply assoc_in in A. apply put_fold_in; [now apply (filter_nodup (fun k => negb (own k)))|]. apply filter_In. split; [exact A|]. cbn [fst]. destruct (own k) eqn:O; [|reflexivity]. apply own_spec in O. exfalso. apply K. cbn [In] in *. tauto.
    + apply assoc_none in A. rewrite put_fold_out; [|intros X; apply A; now apply (filter_keys (fun k => negb (own k)))]. cbn [assoc]. rewrite eqb_neq; [reflexivity|]. intros ->. apply K. cbn [In]. tauto.
Qed.

(** ** Types, fields and parameters *)
Lemma dtype_spec t ty : numpy_type t ty -> dtypemap t = Some (Some ty).
Proof. intros H. inversion H; subst; reflexivity. Qed.
Lemma dtype_bit : dtypemap (L "bit") = Some None. Proof. reflexivity. Qed.
Lemma digit_facts a : In a (L "0123456789") -> is_space a = false /\ Ascii.eqb "x"%char a = false /\ Ascii.eqb a "*"%char = false.
Proof. intros H. change (L "0123456789") with ["0";"1";"2";"3";"4";"5";"6";"7";"8";"9"]%char in H. repeat (destruct H as [<-|H]; [now repeat split|]). contradiction. Qed.
Lemma digits_filter k : Forall (fun a => In a (L "0123456789")) k -> filter (fun a => negb (Ascii.eqb a "*"%char)) k = k.
Proof. induction 1 as [|a k A F IH]; [reflexivity|]. cbn [filter]. destruct (digit_facts a A) as (_ & _ & E). rewrite E. cbn [negb]. now rewrite IH. Qed.
Lemma digits_size k s : digits k -> s = k \/ s = k ++ ["*"%char] -> strip s = s /\ existsb (Ascii.eqb "x"%char) s = false /\ str_eqb s (L "*") = false /\ filter (fun a => negb (Ascii.eqb a "*"%char)) s = k.
Proof.
  intros [N F] S.
  assert (SS : solid s).
  { apply solid_general.
    - destruct S as [->| ->]; [exact N|destruct k; discriminate].
    - intros a r E. destruct k as [|b k]; [congruence|]. inversion F as [|? ? B _]. assert (a = b) by (destruct S as [->| ->]; cbn in E; congruence). subst a. now apply digit_facts.
    - intros q b E. destruct S as [->| ->].
      + assert (B : In b k) by (rewrite E; apply in_or_app; right; now left). apply digit_facts. rewrite Forall_forall in F. now apply F.
      + apply app_inj_tail in E. destruct E as [_ <-]. reflexivity. }
  split; [rewrite <- (app_nil_r s) at 1; apply (strip_solid [] s []); [intros ? []|intros ? []|exact SS]|].
  assert (X : existsb (Ascii.eqb "x"%char) k = false) by (clear - F; induction F as [|a k A F IH]; [reflexivity|]; cbn [existsb]; destruct (digit_facts a A) as (_ & E & _); now rewrite E).
  split; [destruct S as [->| ->]; [exact X|]; rewrite existsb_app, X; reflexivity|]. split.
  - apply eqb_neq. intros E. destruct k as [|a k]; [congruence|]. inversion F as [|? ? A _]. destruct (digit_facts a A) as (_ & _ & Q). assert (a = "*"%char) by (destruct S as [->| ->]; cbn in E; congruence). subst. discriminate.
  - destruct S as [->| ->]; [now apply digits_filter|]. rewrite filter_app, digits_filter by exact F. cbn. apply app_nil_r.
Qed.
Lemma numpy_fun t a b : numpy_type t a -> numpy_type t b -> a = b.
Proof. intros H K. apply dtype_spec in H, K. congruence. Qed.
Lemma field_type_fun n a b : field_type n a -> field_type n b -> a = b.
Proof.
  intros H K. inversion H as [t ty T N A|t ty k s T N C D A S]; subst; inversion K as [t' ty' T' N' A'|t' ty' k' s' T' N' C' D' A' S']; subst; unfold attr in *; try congruence.
  - assert (t' = t) by congruence. subst. now apply (numpy_fun t).
  - assert (t' = t) by congruence. assert (s' = s) by congruence. subst t' s'. f_equal; [now apply (numpy_fun t)|]. destruct (digits_size k s D S) as (_ & _ & _ & E1). destruct (digits_size k' s D' S') as (_ & _ & _ & E2). congruence.
Qed.
Lemma described_spec n d : described n d -> description (descs n) = Ok d.
Proof. intros [[-> ->]| ->]; reflexivity. Qed.
Section Proof.
Variables (value : Type) (type_ok : str -> bool) (conv : str -> str -> option value).
Definition field_rel (n : node) (f : field) : Prop := extract_field n = Ok f /\ attr n "name" (fname f) /\ (exists ty, ftype f = Some ty /\ field_type n ty /\ type_ok ty = true) /\ says n (fextra f).
Lemma field_good n : good_field type_ok n -> exists f, field_rel n f.
Proof.
  intros (name & ty & d & A & D & T & O). unfold field_rel, extract_field. unfold attr in A. rewrite A, (described_spec n d D). inversion T as [t ty' B N S|t ty' k s B N C K S E]; subst; unfold attr in B; rewrite B, (dtype_spec t _ N).
  - rewrite S. eexists. split; [reflexivity|]. cbn [fname ftype fextra]. split; [exact A|]. split; [eauto|now apply extras_says].
  - unfold attr in S. rewrite S. destruct (digits_size k s K E) as (E1 & E2 & E3 & E4). rewrite E1, E2, E3. assert (I' : is_string (Some ty') = true) by (destruct C as [->| ->]; inversion N; subst; reflexivity).
    rewrite I'. cbn [option_map]. rewrite E4. eexists. split; [reflexivity|]. cbn [fname ftype fextra]. split; [exact A|]. split; [eauto|now apply extras_says].
Qed.
Definition param_rel (n : node) (p : par) : Prop := extract_param value conv n = Ok p /\ attr n "name" (pname p) /\ attr n "value" (pvalue p).
Lemma param_good n : good_param value conv n -> exists p, param_rel n p.
Proof.
  intros (name & t & v & d & A & T & V & D & C). unfold param_rel, extract_param. unfold attr in *. rewrite A, (described_spec n d D), T.
  destruct C as [->|(ty & N & C)]; [rewrite dtype_bit|rewrite (dtype_spec t ty N)]; rewrite V.
  - eexists. split; [reflexivity|]. auto.
  - destruct (conv ty v); [|congruence]. eexists. split; [reflexivity|]. auto.
Qed.
Lemma all_good {A B} (P : A -> Prop) (R : A -> B -> Prop) l : (forall a, P a -> exists b, R a b) -> Forall P l -> exists m, Forall2 R l m.
Proof. intros H F. induction F as [|a l Pa F (m & IH)]; [exists []; constructor|]. destruct (H a Pa) as (b & Rb). exists (b :: m). now constructor. Qed.
Lemma params_dict ns ps : Forall2 param_rel ns ps -> forall e k, assoc k (fold_left (fun d p => put (pname p) (pvalue p) d) ps e) = match last_param ns k with Some v => Some v | None => assoc k e end.
Proof.
  induction 1 as [|n p ns ps (_ & A & V) F IH]; intros e k; [reflexivity|]. cbn [fold_left last_param]. rewrite IH. destruct (last_param ns k); [reflexivity|]. unfold attr in *. rewrite A, assoc_put.
  destruct (eqb_cases (pname p) k) as [[-> E]|[N E]]; [rewrite eqb_refl; now rewrite V|]. rewrite E. rewrite eqb_neq by congruence. reflexivity.
Qed.

(** ** Cells *)
Lemma fill_good hs fs r : Forall2 field_rel hs fs -> Forall2 (fun n c => forall s, c = Some s -> forall ty, field_type n ty -> conv ty s <> None) hs r ->
  exists c m, fill value conv fs (map TD r) = Ok (c, m) /\ List.length c = List.length r /\ List.length m = List.length r /\
    forall j n x, nth_error hs j = Some n -> nth_error r j = Some x -> exists y b, nth_error c j = Some y /\ nth_error m j = Some b /\ cell_right value conv n x y b.
Proof.
  intros F. revert r. induction F as [|n f hs fs R F IH]; intros r G; inversion G as [|? x ? r' Gx G']; subst.
  - exists [], []. repeat split. intros [|j] ? ?; discriminate.
  - destruct (IH r' G') as (c & m & E & L1 & L2 & K). cbn [map fill]. destruct R as (_ & _ & (ty & T1 & T2 & T3) & _). rewrite T1. cbn [type_name]. destruct x as [s|].
    + pose proof (Gx s eq_refl ty T2) as C. destruct (conv ty s) as [v|] eqn:Cv; [|congruence]. rewrite E. exists (Val value v :: c), (true :: m). cbn [List.length]. repeat split; auto.
      intros [|j] n0 x0; cbn [nth_error]; [intros [= <-] [= <-]|apply K]. exists (Val value v), true. repeat split. cbn [cell_right]. exists ty, v. auto.
    + rewrite E. exists (Zero value :: c), (false :: m). cbn [List.length]. repeat split; auto. intros [|j] n0 x0; cbn [nth_error]; [intros [= <-] [= <-]|apply K]. exists (Zero value), false. repeat split.
Qed.
Lemma strip_white s : (forall a, In a s -> is_space a = true) -> strip s = [].
Proof.
  intros H. unfold strip. assert (E : snd (span is_space s) = []). { induction s as [|a s IH]; [reflexivity|]. cbn [span]. rewrite (H a (or_introl eq_refl)). destruct (span is_space s) as [u v] eqn:Q. cbn [snd] in *. apply IH. intros b B. apply H. now right. }
  now rewrite E.
Qed.
Lemma rows_good hs fs b rs : Forall2 field_rel hs fs -> rows_of b rs -> Forall (fun r => Forall2 (fun n c => forall s, c = Some s -> forall ty, field_type n ty -> conv ty s <> None) hs r) rs ->
  exists a m, fill_rows value conv fs b = Ok (a, m) /\ List.length a = List.length rs /\ List.length m = List.length rs /\
    forall i r, nth_error rs i = Some r -> exists ai mi, nth_error a i = Some ai /\ nth_error m i = Some mi /\ List.length ai = List.length r /\ List.length mi = List.length r /\
      forall j n c, nth_error hs j = Some n -> nth_error r j = Some c -> exists x q, nth_error ai j = Some x /\ nth_error mi j = Some q /\ cell_right value conv n c x q.
Proof.
  intros F R. induction R as [|l b rs R IH|s b rs W R IH]; intros G.
  - exists [], []. repeat split. intros [|i] ?; discriminate.
  - inversion G as [|? ? Gl Gr]; subst. destruct (IH Gr) as (a & m & E & L1 & L2 & K). destruct (fill_good hs fs l F Gl) as (c & q & E' & L3 & L4 & K'). cbn [fill_rows]. rewrite E', E. exists (c :: a), (q :: m). cbn [List.length]. repeat split; auto.
    intros [|i] r; cbn [nth_error]; [intros [= <-]; exists c, q; auto|apply K].
  - destruct (IH G) as (a & m & E & K). cbn [fill_rows]. rewrite strip_white by exact W. exists a, m. auto.
Qed.
Lemma f2_nth {A B} (R : A -> B -> Prop) l m : Forall2 R l m -> forall i b, nth_error m i = Some b -> exists a, nth_error l i = Some a /\ R a b.
Proof. induction 1 as [|x y l m H F IH]; intros [|i] b E; try discriminate; cbn [nth_error] in *; [injection E as <-; eauto|eauto]. Qed.
Lemma names_nodup hs fs : Forall2 field_rel hs fs -> (forall i j x y a b, nth_error hs i = Some x -> nth_error hs j = Some y -> attr x "name" a -> attr y "name" b -> i <> j -> a <> b) -> NoDup (map fname fs).
Proof.
  intros F H. apply NoDup_nth_error. intros i j Hi E. destruct (Nat.eq_dec i j) as [|Nij]; [assumption|exfalso]. rewrite map_length in Hi. destruct (nth_error fs i) as [f|] eqn:Ef; [|apply nth_error_None in Ef; lia].
  rewrite (map_nth_error fname i fs Ef) in E. destruct (nth_error fs j) as [g|] eqn:Eg; [|assert (Z : nth_error (map fname fs) j = None) by (apply nth_error_None; rewrite map_length; now apply nth_error_None); congruence].
  rewrite (map_nth_error fname j fs Eg) in E. injection E as E. destruct (f2_nth _ _ _ F i f Ef) as (x & X & (_ & Ax & _)). destruct (f2_nth _ _ _ F j g Eg) as (y & Y & (_ & Ay & _)). now apply (H i j x y _ _ X Y Ax Ay Nij).
Qed.
Lemma good_type_ok hs fs : Forall2 field_rel hs fs -> NoDup (map fname fs) -> good_type type_ok fs = Ok tt.
Proof.
  intros F N. unfold good_type. assert (A : forallb (fun f => type_ok (type_name (ftype f))) fs = true). { apply forallb_forall. intros f I'. clear N. induction F as [|n g hs fs (_ & _ & (ty & T1 & _ & T3) & _) F IH]; [contradiction|]. destruct I' as [<-|I']; [now rewrite T1|auto]. }
  rewrite A. assert (B : forallb (fun f => Nat.leb (count_occ (list_eq_dec ascii_dec) (map fname fs) (fname f)) 1) fs = true). { apply forallb_forall. intros f _. apply Nat.leb_le. now apply NoDup_count_occ. } now rewrite B.
Qed.
End Proof.
