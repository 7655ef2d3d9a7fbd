(** * RegGet: translating names into objects (C98) *)
From Coq Require Import List Bool Arith Ascii String Lia.
From Verif Require Import PyBase PubModel AngStrModel AngStrRead IoFiles RegModel RegProof.
Import ListNotations.

(** ** Specification *)
(** "all" in small or capital letters *)
Definition all_word (s : str) : Prop := exists a b c, s = [a; b; c] /\ In a (L "aA") /\ In b (L "lL") /\ In c (L "lL").
(** a name without comma, not starting or ending with a blank *)
Definition tidy (n : str) : Prop := solid n /\ ~ In ","%char n.
(** names separated by commas, with blanks around them *)
Inductive listed : list str -> str -> Prop :=
| listed_one n l r : tidy n -> white l -> white r -> listed [n] (l ++ n ++ r)
| listed_more n l r ns t : tidy n -> white l -> white r -> listed ns t -> listed (n :: ns) (l ++ n ++ r ++ ","%char :: t).
(** an object by its name, no group of this name *)
Definition object_at (g : registry) (n : str) (o : dobj) : Prop := assoc n (groups g) = None /\ assoc n (items g) = Some o.

(** ** The word "all" *)
Lemma lower_spec a b : In b (L "abcdefghijklmnopqrstuvwxyz") -> (lower1 a = b <-> a = b \/ a = ascii_of_nat (nat_of_ascii b - 32)).
Proof.
  intros B. cbn in B. split.
  - intros H. unfold lower1 in H. destruct ((65 <=? nat_of_ascii a) && (nat_of_ascii a <=? 90))%nat eqn:E; [|now left]. right. apply andb_prop in E. destruct E as [E1 E2]. apply Nat.leb_le in E1, E2.
    rewrite <- H. rewrite nat_ascii_embedding by lia. replace (nat_of_ascii a + 32 - 32)%nat with (nat_of_ascii a) by lia. now rewrite ascii_nat_embedding.
  - intros H. repeat (destruct B as [<-|B]; [destruct H as [->| ->]; reflexivity|]). contradiction.
Qed.
Lemma all_spec s : str_eqb (map lower1 s) (L "all") = true <-> all_word s.
Proof.
  rewrite eqs. unfold all_word. split.
  - intros H. destruct s as [|a [|b [|c [|d s]]]]; try discriminate. injection H as A B C. exists a, b, c. apply lower_spec in A, B, C; try (cbn; tauto). cbn. intuition (subst; auto).
  - intros (a & b & c & -> & A & B & C). cbn [map]. cbn in A, B, C. intuition (subst; reflexivity).
Qed.
Lemma all_no_comma s : all_word s -> ~ In ","%char s.
Proof. intros (a & b & c & -> & A & B & C). cbn in *. intuition (subst; discriminate). Qed.
Lemma comma_spec s : existsb (Ascii.eqb comma) s = true <-> In ","%char s.
Proof. rewrite existsb_exists. split; [intros (x & I' & E); apply Ascii.eqb_eq in E; now subst|intros H; exists ","%char; split; [exact H|reflexivity]]. Qed.
Lemma white_no_comma l : white l -> ~ In ","%char l.
Proof. intros W I'. specialize (W _ I'). discriminate. Qed.
Lemma listed_split ns t : listed ns t -> map strip (split_on comma t) = ns.
Proof.
  intros H. induction H as [n l r [S C] Wl Wr|n l r ns t [S C] Wl Wr H IH].
  - rewrite split_no; [cbn [map]; now rewrite strip_solid|]. intros I'. apply in_app_or in I'. destruct I' as [I'|I']; [now apply (white_no_comma l)|]. apply in_app_or in I'. destruct I' as [I'|I']; [contradiction|now apply (white_no_comma r)].
  - replace (l ++ n ++ r ++ ","%char :: t) with ((l ++ n ++ r) ++ comma :: t) by (rewrite <- !app_assoc; reflexivity). rewrite split_one; [cbn [map]; rewrite strip_solid by assumption; now rewrite IH|].
    intros I'. apply in_app_or in I'. destruct I' as [I'|I']; [now apply (white_no_comma l)|]. apply in_app_or in I'. destruct I' as [I'|I']; [contradiction|now apply (white_no_comma r)].
Qed.
Lemma listed_comma n m ns t : listed (n :: m :: ns) t -> In ","%char t.
Proof. intros H. inversion H; subst. apply in_or_app. right. apply in_or_app. right. apply in_or_app. right. now left. Qed.
Lemma mapM_map {A B C} (f : B -> @res C) (h : A -> B) l : mapM f (map h l) = mapM (fun a => f (h a)) l.
Proof. induction l as [|a l IH]; [reflexivity|]. cbn [map mapM]. now rewrite IH. Qed.

(** ** C98 *)
Theorem C98_all : forall fuel g s a, all_word s -> exists l, getObjects fuel g (RStr s) a = (g, Ok l) /\ List.length l = List.length (items g) /\ forall v, In v l <-> exists k o, In (k, o) (items g) /\ v = VObj o.
Proof.
  intros fuel g s a H. unfold getObjects. rewrite (proj2 (all_spec s) H). eexists. split; [reflexivity|]. split; [apply map_length|]. intros v. rewrite in_map_iff. split.
  - intros ((k & o) & <- & I'). eauto.
  - intros (k & o & I' & ->). exists (k, o). auto.
Qed.
(** several names between commas: their objects in the order named *)
Theorem C98_commas : forall fuel g n m ns t a os, listed (n :: m :: ns) t -> Forall2 (object_at g) (n :: m :: ns) os -> getObjects (S fuel) g (RStr t) a = (g, Ok (map VObj os)).
Proof.
  intros fuel g n m ns t a os Ht F. pose proof (listed_comma n m ns t Ht) as C. unfold getObjects. destruct (str_eqb (map lower1 t) (L "all")) eqn:E; [exfalso; apply all_spec in E; now apply (all_no_comma t)|].
  rewrite (proj2 (comma_spec t) C). f_equal. rewrite <- (mapM_map (getitem (S fuel) g) strip), (listed_split _ _ Ht). clear - F. induction F as [|k o ns' os' [A B] F IH]; [reflexivity|]. cbn [mapM map]. rewrite (C97_lookup g k o fuel A B), IH. reflexivity.
Qed.
(** an unknown one among them is a KeyError *)
Theorem C98_unknown : forall fuel g n m ns t a k, listed (n :: m :: ns) t -> In k (n :: m :: ns) -> ~ known g k -> (forall x, In x (n :: m :: ns) -> assoc x (groups g) = None) -> getObjects (S fuel) g (RStr t) a = (g, Raise KeyError).
Proof.
  intros fuel g n m ns t a k Ht K U G. pose proof (listed_comma n m ns t Ht) as C. unfold getObjects. destruct (str_eqb (map lower1 t) (L "all")) eqn:E; [exfalso; apply all_spec in E; now apply (all_no_comma t)|].
  rewrite (proj2 (comma_spec t) C). f_equal. rewrite <- (mapM_map (getitem (S fuel) g) strip), (listed_split _ _ Ht). revert K G. generalize (n :: m :: ns). intros l. clear - U. induction l as [|x l IH]; intros K G; [contradiction|]. cbn [mapM].
  assert (X : getitem (S fuel) g x = match assoc x (items g) with Some o => Ok (VObj o) | None => Raise KeyError end) by (cbn [getitem]; now rewrite G by now left). rewrite X. destruct (assoc x (items g)) as [o|] eqn:A; [|reflexivity].
  destruct K as [<-|K]; [exfalso; apply U; apply known_spec; left; unfold has; now rewrite A|]. rewrite IH; [reflexivity|exact K|]. intros y Y. apply G. now right.
Qed.
(** one name; the name of a group; otherwise one name per character *)
Theorem C98_single : forall fuel g n a o, object_at g n o -> ~ In ","%char n -> ~ all_word n -> getObjects (S fuel) g (RStr n) a = (g, Ok [VObj o]).
Proof.
  intros fuel g n a o [A B] C W. unfold getObjects. destruct (str_eqb (map lower1 n) (L "all")) eqn:E; [exfalso; apply W; now apply all_spec|]. destruct (existsb (Ascii.eqb comma) n) eqn:F; [exfalso; apply C; now apply comma_spec|].
  unfold has. rewrite B. now rewrite (C97_lookup g n o fuel A B).
Qed.
Theorem C98_group : forall fuel g s ks a os, assoc s (groups g) = Some ks -> assoc s (items g) = None -> Forall2 (object_at g) ks os -> ~ In ","%char s -> ~ all_word s ->
  getObjects (S fuel) g (RStr s) a = (g, Ok (map VObj os)).
Proof.
  intros fuel g s ks a os A B F C W. unfold getObjects. destruct (str_eqb (map lower1 s) (L "all")) eqn:E; [exfalso; apply W; now apply all_spec|]. destruct (existsb (Ascii.eqb comma) s) eqn:Q; [exfalso; apply C; now apply comma_spec|].
  unfold has. rewrite B, A. f_equal. clear - F. induction F as [|k o ns' os' [A B] F IH]; [reflexivity|]. cbn [mapM map]. rewrite (C97_lookup g k o fuel A B), IH. reflexivity.
Qed.
Theorem C98_characters : forall fuel g s l r a os, ~ known g (l ++ s ++ r) -> solid s -> white l -> white r -> Forall2 (fun c o => object_at g [c] o) s os -> ~ In ","%char (l ++ s ++ r) -> ~ all_word (l ++ s ++ r) ->
  getObjects (S fuel) g (RStr (l ++ s ++ r)) a = (g, Ok (map VObj os)).
Proof.
  intros fuel g s l r a os K S Wl Wr F C W. set (t := l ++ s ++ r) in *. unfold getObjects. destruct (str_eqb (map lower1 t) (L "all")) eqn:E; [exfalso; apply W; now apply all_spec|]. destruct (existsb (Ascii.eqb comma) t) eqn:Q; [exfalso; apply C; now apply comma_spec|].
  rewrite known_spec in K. unfold has in K |- *. destruct (assoc t (items g)); [exfalso; auto|]. destruct (assoc t (groups g)); [exfalso; auto|]. unfold t. rewrite strip_solid by assumption. f_equal. clear - F. induction F as [|k o ns' os' [A B] F IH]; [reflexivity|]. cbn [mapM map]. rewrite (C97_lookup g [k] o fuel A B), IH. reflexivity.
Qed.
(** a mixed sequence: names become their objects, objects stay, the order is kept and nothing is registered unless asked *)
Definition means (g : registry) (x : str + dobj) (o : dobj) : Prop := match x with inl n => object_at g n o | inr o' => o' = o end.
Definition right_type (x : str + dobj) : Prop := match x with inr o => okind o = true | inl _ => True end.
Lemma mixed_objs fuel g l os : Forall2 (means g) l os -> mapM (fun x => match x with inl n => getitem (S fuel) g n | inr o => Ok (VObj o) end) l = Ok (map VObj os).
Proof. intros F. induction F as [|x o l os M F IH]; [reflexivity|]. cbn [mapM map]. rewrite IH. destruct x as [n|o']; cbn [means] in M; [destruct M as [A B]; now rewrite (C97_lookup g n o fuel A B)|now subst]. Qed.
Lemma check_none fuel l : forall g, Forall right_type l -> check_objs fuel false g l = (g, Ok tt).
Proof. induction l as [|[n|o] l IH]; intros g F; inversion F; subst; cbn [check_objs]; [reflexivity|now apply IH|]. cbn [right_type] in *. rewrite H1. cbn [negb andb]. now apply IH. Qed.
Theorem C98_mixed : forall fuel g l os, Forall2 (means g) l os -> (typed g = true -> Forall right_type l) -> getObjects (S fuel) g (RSeq l) false = (g, Ok (map VObj os)).
Proof.
  intros fuel g l os F T. unfold getObjects. rewrite (mixed_objs fuel g l os F). destruct (typed g); [|reflexivity]. now rewrite check_none by auto.
Qed.
Theorem C98_lone : forall fuel g o, okind o = true -> getObjects fuel g (ROne o) false = if typed g then (g, Ok [VObj o]) else (g, Raise KeyError).
Proof. intros fuel g o O. unfold getObjects. rewrite O, andb_true_r. destruct (typed g) eqn:T; [|reflexivity]. cbn [mapM]. now rewrite check_none by (repeat constructor; exact O). Qed.
Theorem C98_wrong_type : forall fuel g l os, Forall2 (means g) l os -> typed g = true -> (exists o, In (inr o) l /\ okind o = false) -> getObjects (S fuel) g (RSeq l) false = (g, Raise ValueError).
Proof.
  intros fuel g l os F T (o & I' & O). unfold getObjects. rewrite (mixed_objs fuel g l os F), T. assert (G : check_objs (S fuel) false g l = (g, Raise ValueError)).
  { clear F os. induction l as [|[n|o'] l IH]; [contradiction|cbn [check_objs]; apply IH; destruct I' as [I'|I']; [discriminate|exact I']|]. cbn [check_objs]. destruct (okind o') eqn:K; cbn [negb]; [|reflexivity]. apply IH. destruct I' as [[= ->]|I']; [congruence|exact I']. }
  now rewrite G.
Qed.
(** asked to add what is missing: named objects get registered under their names, in a fresh registry of a datatype or any other *)
Definition fresh_objs (g : registry) (objs : list (str * dobj)) : Prop :=
  NoDup (map fst objs) /\ NoDup (map (fun p => oid (snd p)) objs) /\ forall n o, In (n, o) objs -> oname o = Some n /\ okind o = true /\ ~ In n (map fst (items g)) /\ forall p, In p (items g) -> oid (snd p) <> oid o.
Lemma check_add fuel objs : forall g, fresh_objs g objs -> check_objs fuel true g (map (fun p => inr (snd p)) objs) = (fold_left (fun g p => setitem g (fst p) (snd p)) objs g, Ok tt).
Proof.
  induction objs as [|(n, o) objs IH]; intros g (N1 & N2 & H); [reflexivity|]. cbn [map snd check_objs fold_left fst]. destruct (H n o (or_introl eq_refl)) as (A & B & C & D). rewrite B. cbn [negb andb].
  assert (E : existsb (fun p => Nat.eqb (oid (snd p)) (oid o)) (items g) = false). { destruct (existsb _ _) eqn:E; [|reflexivity]. apply existsb_exists in E. destruct E as (p & I' & E). apply Nat.eqb_eq in E. exfalso. now apply (D p). }
  rewrite E, A. cbn [negb andb]. assert (Hn : has n (items g) = false) by (destruct (has n (items g)) eqn:Q; [exfalso; apply C; now apply has_in|reflexivity]). rewrite Hn. apply IH.
  inversion N1 as [|? ? M1 M2]; inversion N2 as [|? ? M3 M4]; subst. split; [exact M2|]. split; [exact M4|]. intros n' o' I'. destruct (H n' o' (or_intror I')) as (A' & B' & C' & D'). repeat split; auto.
  - cbn [setitem items]. rewrite put_keys. intros [->|Q]; [|contradiction]. apply M1. apply (in_map fst) in I'. exact I'.
  - cbn [setitem items]. intros p Hp. assert (Q : p = (n, o) \/ In p (items g)). { clear - Hp Hn. unfold has in Hn. induction (items g) as [|(k0, v0) d IHd]; cbn [put assoc] in *; [destruct Hp as [<-|[]]; auto|]. destruct (str_eqb n k0); [discriminate|]. destruct Hp as [<-|Hp]; [right; now left|]. destruct (IHd Hn Hp); [now left|right; now right]. }
    destruct Q as [->|Q]; [|now apply D']. cbn [snd]. intros Z. apply M3. rewrite Z. change (oid o') with ((fun p => oid (snd p)) (n', o')). now apply in_map.
Qed.
Lemma fold_set objs : forall g, let g' := fold_left (fun g p => setitem g (fst p) (snd p)) objs g in
  groups g' = groups g /\ (forall k, ~ In k (map fst objs) -> assoc k (items g') = assoc k (items g)) /\ (NoDup (map fst objs) -> forall k o, In (k, o) objs -> assoc k (items g') = Some o).
Proof.
  induction objs as [|(n, o) objs IH]; intros g; cbn [fold_left map fst snd]; [repeat split; auto; contradiction|]. destruct (IH (setitem g n o)) as (A & B & C). cbn zeta in *. repeat split; auto.
  - intros k K. rewrite B by (intros Q; apply K; now right). cbn [setitem items]. apply assoc_put_other. intros ->. apply K. now left.
  - intros ND k o' [[= -> ->]|I']; inversion ND; subst; [|now apply C]. rewrite B by assumption. apply assoc_put_same.
Qed.
Theorem C98_add_missing : forall fuel g objs, typed g = true -> fresh_objs g objs -> exists g', getObjects fuel g (RSeq (map (fun p => inr (snd p)) objs)) true = (g', Ok (map (fun p => VObj (snd p)) objs)) /\
  groups g' = groups g /\ (forall n o, In (n, o) objs -> assoc n (items g') = Some o) /\ (forall k, ~ In k (map fst objs) -> assoc k (items g') = assoc k (items g)).
Proof.
  intros fuel g objs T F. unfold getObjects. assert (M : mapM (fun x => match x with inl n => getitem fuel g n | inr o => Ok (VObj o) end) (map (fun p => inr (snd p)) objs) = Ok (map (fun p : str * dobj => VObj (snd p)) objs)).
  { clear. induction objs as [|p objs IH]; [reflexivity|]. cbn [map mapM]. now rewrite IH. }
  rewrite M, T, check_add by exact F. eexists. split; [reflexivity|]. destruct (fold_set objs g) as (A & B & C). cbn zeta in *. destruct F as (N1 & _). auto.
Qed.
(** a taken name is a KeyError, and an object that is there already is not added again *)
Theorem C98_taken : forall fuel g o n, typed g = true -> okind o = true -> oname o = Some n -> In n (map fst (items g)) ->
  (forall p, In p (items g) -> oid (snd p) <> oid o) -> getObjects fuel g (RSeq [inr o]) true = (g, Raise KeyError).
Proof.
  intros fuel g o n T O N I' D. unfold getObjects. cbn [mapM]. rewrite T. cbn [check_objs]. rewrite O. cbn [negb].
  assert (E : existsb (fun p => Nat.eqb (oid (snd p)) (oid o)) (items g) = false). { destruct (existsb _ _) eqn:E; [|reflexivity]. apply existsb_exists in E. destruct E as (p & P & E). apply Nat.eqb_eq in E. exfalso. now apply (D p). }
  rewrite E, N. cbn [negb andb]. now rewrite (proj2 (has_in n (items g)) I').
Qed.
Theorem C98_present : forall fuel g o k, typed g = true -> okind o = true -> In (k, o) (items g) -> getObjects fuel g (RSeq [inr o]) true = (g, Ok [VObj o]).
Proof.
  intros fuel g o k T O I'. unfold getObjects. cbn [mapM]. rewrite T. cbn [check_objs]. rewrite O. cbn [negb]. assert (E : existsb (fun p => Nat.eqb (oid (snd p)) (oid o)) (items g) = true) by (apply existsb_exists; exists (k, o); split; [exact I'|apply Nat.eqb_refl]). rewrite E. reflexivity.
Qed.
(** an object without a name: the search for a generated name never ends if none is in use, and otherwise replaces the object that has it *)
Theorem C98_generated_refuted : forall g o, typed g = true -> okind o = true -> oname o = None -> (forall p, In p (items g) -> oid (snd p) <> oid o) ->
  ((forall j, ~ In (dataname g ++ decimal j) (map fst (items g))) -> forall fuel, snd (getObjects fuel g (RSeq [inr o]) true) = OutOfFuel) /\
  (forall k old, dataname g ++ decimal 1 = k -> assoc k (items g) = Some old -> forall fuel, exists g', getObjects (S fuel) g (RSeq [inr o]) true = (g', Ok [VObj o]) /\ assoc k (items g') = Some o /\ old <> o).
Proof.
  intros g o T O N D. assert (E : existsb (fun p => Nat.eqb (oid (snd p)) (oid o)) (items g) = false). { destruct (existsb _ _) eqn:E; [|reflexivity]. apply existsb_exists in E. destruct E as (p & P & E). apply Nat.eqb_eq in E. exfalso. now apply (D p). }
  split.
  - intros H fuel. unfold getObjects. cbn [mapM]. rewrite T. cbn [check_objs]. rewrite O, E, N. cbn [negb andb]. assert (G : forall f j, gen_name f j g = None). { induction f as [|f IH]; intros j; [reflexivity|]. cbn [gen_name]. destruct (has (dataname g ++ decimal j) (items g)) eqn:Q; [exfalso; apply (H j); now apply has_in|apply IH]. }
    rewrite G. reflexivity.
  - intros k old K A fuel. unfold getObjects. cbn [mapM]. rewrite T. cbn [check_objs]. rewrite O, E, N. cbn [negb andb]. assert (G : gen_name (S fuel) 1 g = Some k). { cbn [gen_name]. rewrite K. unfold has. now rewrite A. }
    rewrite G. cbn [check_objs]. eexists. split; [reflexivity|]. split; [apply assoc_put_same|]. intros ->. apply assoc_in in A. now apply (D (k, o)).
Qed.
(** a group among names between commas gives a dictionary instead of objects *)
Theorem C98_group_in_list_refuted : exists g t d, getObjects 5 g (RStr t) false = (g, Ok [VObj (DObj 1 true None); VDict d]) /\ listed [L "B"; L "sdss"] t.
Proof.
  exists (history (L "band") true [ORegister [(L "B", DObj 1 true None)] GNone; ORegister [(L "u", DObj 2 true None)] (GStr (L "sdss"))]), (L "B, sdss"), [(L "u", VObj (DObj 2 true None))]. split; [reflexivity|].
  change (L "B, sdss") with ([] ++ L "B" ++ [] ++ ","%char :: (L " " ++ L "sdss" ++ [])).
  assert (T1 : tidy (L "B")) by (split; [split; reflexivity|cbn; intuition discriminate]). assert (T2 : tidy (L "sdss")) by (split; [split; reflexivity|cbn; intuition discriminate]). assert (W0 : white []) by (intros a []). assert (W1 : white (L " ")) by (intros a [<-|[]]; reflexivity).
  apply listed_more; auto. now apply listed_one.
Qed.
Example C98_ex : let g := history (L "band") true [ORegister [(L "U", DObj 1 true None); (L "B", DObj 2 true (Some (L "Bb")))] (GStr (L "UB1"))] in
  object_at g (L "U") (DObj 1 true None) /\ getObjects 3 g (RStr (L "UB1")) false = (g, Ok [VObj (DObj 1 true None); VObj (DObj 2 true (Some (L "Bb")))]) /\
  getObjects 3 g (RStr (L " UB ")) false = (g, Ok [VObj (DObj 1 true None); VObj (DObj 2 true (Some (L "Bb")))]) /\ getObjectNames g = [(L "U", L "U"); (L "B", L "Bb")] /\
  fresh_objs g [(L "new", DObj 7 true (Some (L "new")))].
Proof.
  intros g. repeat split; try (repeat constructor; cbn; intuition discriminate). all: cbn in *; intuition (subst; try discriminate; auto).
  all: match goal with H : (_, _) = (_, _) |- _ => injection H as <- <-; auto; try discriminate end.
Qed.
