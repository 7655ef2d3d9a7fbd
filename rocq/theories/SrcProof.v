(** * SrcProof: C128, sources of measurements *)
From Coq Require Import List Bool Arith Ascii String Lia.
From Verif Require Import PyBase PubModel PubProps IoColumns IoFiles SexProof SrcModel.
Import ListNotations.

(** ** Specification *)
(** what a user does; every operation comes with the answers the network would give *)
Inductive op :=
| ONew (find : str -> @res str) (a : src_arg) (b : bib)
| OSet (find : str -> @res str) (i : nat) (b : bib)
| OFree (i : nat)
| OClear (c : option str)
| OUse (enable : bool)
| OLook (server : nat -> str -> @res (list record)) (i : nat).
Definition step (w : world) (o : op) : world :=
  match o with
  | ONew find a b => fst (newSource find w a b)
  | OSet find i b => fst (setBibcode find w i b)
  | OFree i => free w i
  | OClear c => fst (clearCache w c)
  | OUse b => useCache w b
  | OLook server i => fst (getRecord server w i)
  end.
Definition run (w : world) (h : list op) : world := fold_left step h w.
Definition reachable (w : world) : Prop := exists url h, w = run (newWorld url) h.
(** a living object *)
Definition lives (w : world) (i : nat) (s : source) : Prop := get_obj (heap w) i = Some s.
(** the code a bibcode argument stands for: nothing for None and for the empty string, otherwise what ADS answers, or the text itself if adsurl is not set *)
Inductive looked_up (url : bool) (find : str -> @res str) : bib -> option str -> Prop :=
| lu_none : looked_up url find BNone None
| lu_empty : looked_up url find (BStr []) None
| lu_found s c : s <> [] -> url = true -> find s = Ok c -> looked_up url find (BStr s) (Some c)
| lu_text s : s <> [] -> url = false -> looked_up url find (BStr s) (Some s).
(** the name and the code that the arguments of the constructor stand for *)
Inductive named (url : bool) (find : str -> @res str) : str -> bib -> str -> option str -> Prop :=
| nm_given t b c : b <> BNone -> looked_up url find b c -> named url find t b t c
| nm_plain t : ~ In slash t -> named url find t BNone t None
| nm_checked x a w c : a <> slash -> ~ In slash w -> looked_up url find (BStr (strip w)) c -> named url find (x ++ [a] ++ slash :: w) BNone (strip (x ++ [a])) c
| nm_unchecked x w : ~ In slash w -> named url find (x ++ slash :: slash :: w) BNone (strip x) (Some (strip w))
| nm_bare w : ~ In slash w -> named url find (slash :: w) BNone [] (Some (strip w)).

(** ** Names *)
Lemma eqb_true (a b : str) : str_eqb a b = true <-> a = b.
Proof. apply str_eqb_spec. Qed.
Lemma eqb_refl (a : str) : str_eqb a a = true.
Proof. now apply eqb_true. Qed.
Lemma eqb_false (a b : str) : a <> b -> str_eqb a b = false.
Proof. intros N. destruct (str_eqb a b) eqn:E; trivial. apply eqb_true in E. congruence. Qed.
Lemma has_slash t : existsb (fun a => a =a slash) t = true <-> In slash t.
Proof.
  rewrite existsb_exists. split; [intros (x & I & E); apply ascii_eqb_spec in E; now subst|]. intros I. exists slash. split; [exact I|now apply ascii_eqb_spec].
Qed.
Lemma no_slash t : ~ In slash t -> existsb (fun a => a =a slash) t = false.
Proof. intros N. destruct (existsb _ t) eqn:E; trivial. exfalso. apply N. now apply has_slash. Qed.
Lemma lookup_ok url find b c : looked_up url find b c -> code_of url find b = Ok c.
Proof. intros [| |s x N U F|s N U]; trivial; subst; cbn; destruct s; try congruence; trivial. now rewrite F. Qed.
Lemma init_two url find x w : ~ In slash w -> init url find (x ++ slash :: w) BNone =
  match rev (split_on slash x) with
  | v :: _ => if str_eqb v [] then Ok (Source (strip (join [slash] (removelast (split_on slash x)))) (Some (strip w)))
              else bindr (code_of url find (BStr (strip w))) (fun c => Ok (Source (strip x) c))
  | [] => Raise IndexError
  end.
Proof.
  intros N. unfold init. rewrite (proj2 (has_slash _)) by (apply in_or_app; right; now left). rewrite (split_app slash x w N). cbv zeta. rewrite rev_app_distr. cbn [rev app].
  destruct (split_on_join slash x) as (J & K). destruct (rev (split_on slash x)) as [|v r] eqn:E; trivial. rewrite removelast_last. now rewrite J.
Qed.
Theorem C128_names : forall url find t b n c, named url find t b n c -> init url find t b = Ok (Source n c).
Proof.
  intros url find t b n c [t' b' c' B U|t' N|x a w c' A N U|x w N|w N].
  - unfold init. apply lookup_ok in U. destruct b'; [congruence| |]; rewrite U; reflexivity.
  - unfold init. now rewrite no_slash.
  - replace (x ++ [a] ++ slash :: w) with ((x ++ [a]) ++ slash :: w) by now rewrite <- app_assoc. rewrite init_two by trivial.
    destruct (rev (split_on slash (x ++ [a]))) as [|v r] eqn:E. { apply (f_equal (@List.length str)) in E. rewrite rev_length in E. destruct (split_on_join slash (x ++ [a])) as (_ & K). destruct (split_on slash (x ++ [a])); [congruence|discriminate]. }
    rewrite eqb_false. { apply lookup_ok in U. rewrite U. reflexivity. }
    intros ->. destruct (split_on_join slash (x ++ [a])) as (J & _). apply (f_equal (@rev str)) in E. rewrite rev_involutive in E. cbn [rev] in E. rewrite E in J.
    destruct (rev r) as [|y l] eqn:R; [destruct x; discriminate J|]. rewrite <- R in J. rewrite SexProof.join_app in J by (rewrite R; discriminate). rewrite app_nil_r in J. apply app_inj_tail in J. destruct J as (_ & J). congruence.
  - replace (x ++ slash :: slash :: w) with ((x ++ [slash]) ++ slash :: w) by now rewrite <- app_assoc. rewrite init_two by trivial.
    replace (x ++ [slash]) with (x ++ slash :: []) by trivial. rewrite (split_app slash x []) by (intros []). rewrite rev_app_distr. cbn [rev app str_eqb]. rewrite removelast_last. destruct (split_on_join slash x) as (J & _). now rewrite J.
  - change (slash :: w) with ([] ++ slash :: w). rewrite init_two by trivial. reflexivity.
Qed.
(** every text is one of those: only the lookup can fail *)
Theorem C128_names_total : forall url find t b, (exists n c, named url find t b n c) \/ (exists s, b = BStr s /\ url = true /\ s <> [] /\ forall c, find s <> Ok c) \/ (exists x s, b = BNone /\ t = x ++ slash :: s /\ url = true /\ forall c, find (strip s) <> Ok c) \/ b = BOther.
Proof.
  intros url find t b. destruct b as [|s|]; [| |auto 10].
  - destruct (in_dec ascii_dec slash t) as [I|N]; [|left; exists t, None; now constructor].
    destruct (split_last slash t I) as (x & w & -> & N). destruct x as [|y x] using rev_ind; [left; exists [], (Some (strip w)); now apply nm_bare|]. clear IHx.
    destruct (ascii_dec y slash) as [->|Y]; [left; exists (strip x), (Some (strip w)); rewrite <- app_assoc; now apply nm_unchecked|].
    rewrite <- app_assoc. destruct (strip w) as [|z r] eqn:S; [left; exists (strip (x ++ [y])), None; apply nm_checked; trivial; rewrite S; constructor|].
    destruct url; [|left; exists (strip (x ++ [y])), (Some (strip w)); apply nm_checked; trivial; constructor; trivial; congruence].
    destruct (find (strip w)) as [c|e|] eqn:F; [left; exists (strip (x ++ [y])), (Some c); apply nm_checked; trivial; apply lu_found; trivial; congruence| |];
      right; right; left; exists (x ++ [y]), w; rewrite <- app_assoc; repeat split; trivial; congruence.
  - destruct s as [|a s]; [left; exists t, None; apply nm_given; [discriminate|constructor]|]. destruct url; [|left; exists t, (Some (a :: s)); apply nm_given; [discriminate|constructor; [discriminate|trivial]]].
    destruct (find (a :: s)) as [c|e|] eqn:F; [left; exists t, (Some c); apply nm_given; [discriminate|apply lu_found; trivial; discriminate]| |]; right; left; exists (a :: s); repeat split; trivial; congruence.
Qed.

(** ** The invariant *)
Definition key (p : nat * source) : str * nat := (s_str (snd p), fst p).
Definition inv (w : world) : Prop := sing w = map key (heap w) /\ NoDup (map fst (heap w)) /\ NoDup (map fst (sing w)) /\ Forall (fun p => fst p < next w) (heap w).
Lemma get_obj_in h i s : NoDup (map fst h) -> (get_obj h i = Some s <-> In (i, s) h).
Proof.
  induction h as [|[j t] r IH]; cbn; [split; [discriminate|tauto]|]. intros N. inversion N as [|? ? X Y]; subst. destruct (Nat.eqb_spec j i) as [->|D].
  - split; [intros E; injection E as ->; now left|]. intros [E|I]; [congruence|]. exfalso. apply X. apply in_map_iff. now exists (i, s).
  - rewrite IH by trivial. split; [now right|]. intros [E|I]; [congruence|trivial].
Qed.
Lemma get_str_in {A} (l : list (str * A)) k v : NoDup (map fst l) -> (get_str l k = Some v <-> In (k, v) l).
Proof.
  induction l as [|[j t] r IH]; cbn; [split; [discriminate|tauto]|]. intros N. inversion N as [|? ? X Y]; subst. destruct (str_eqb j k) eqn:E.
  - apply eqb_true in E. subst. split; [intros E; injection E as ->; now left|]. intros [E|I]; [congruence|]. exfalso. apply X. apply in_map_iff. now exists (k, v).
  - rewrite IH by trivial. split; [now right|]. intros [F|I]; [|trivial]. injection F as -> ->. now rewrite eqb_refl in E.
Qed.
Lemma get_str_none {A} (l : list (str * A)) k : get_str l k = None <-> ~ In k (map fst l).
Proof.
  induction l as [|[j t] r IH]; cbn; [tauto|]. destruct (str_eqb j k) eqn:E; [apply eqb_true in E; subst; split; [discriminate|intros H; exfalso; auto]|].
  rewrite IH. split; [intros H [F|I]; [subst; now rewrite eqb_refl in E|auto]|tauto].
Qed.
Lemma sing_lives w k i : inv w -> (get_str (sing w) k = Some i <-> exists s, lives w i s /\ s_str s = k).
Proof.
  intros (E & N & M & _). rewrite get_str_in by trivial. rewrite E, in_map_iff. unfold lives. split.
  - intros ([j s] & K & I). unfold key in K. cbn in K. injection K as <- <-. exists s. now rewrite get_obj_in.
  - intros (s & I & <-). exists (i, s). rewrite get_obj_in in I by trivial. now split.
Qed.
Lemma set_code_fst h i c : map fst (set_code h i c) = map fst h.
Proof. unfold set_code. rewrite map_map. apply map_ext. intros [j s]. cbn. now destruct (Nat.eqb j i). Qed.
Lemma set_code_key h i c : map key (set_code h i c) = map key h.
Proof. unfold set_code. rewrite map_map. apply map_ext. intros [j s]. cbn. now destruct (Nat.eqb j i). Qed.
Lemma set_code_inv w i c : inv w -> inv (with_heap w (set_code (heap w) i c)).
Proof.
  intros (E & N & M & F). unfold inv, with_heap. cbn. rewrite set_code_key, set_code_fst. repeat split; trivial. apply Forall_forall. intros p I.
  assert (J : In (fst p) (map fst (heap w))) by (rewrite <- (set_code_fst (heap w) i c); now apply in_map). apply in_map_iff in J. destruct J as (q & Q & J). rewrite <- Q. rewrite Forall_forall in F. now apply F.
Qed.
Lemma get_set h i c j : get_obj (set_code h i c) j = if Nat.eqb i j then option_map (fun s => Source (s_str s) c) (get_obj h j) else get_obj h j.
Proof.
  induction h as [|[k t] r IH]; cbn; [now destruct (Nat.eqb i j)|]. destruct (Nat.eqb_spec k i) as [->|D]; cbn.
  - destruct (Nat.eqb_spec i j) as [->|E]; trivial.
  - destruct (Nat.eqb_spec k j) as [->|E]; [destruct (Nat.eqb_spec i j); congruence|]. exact IH.
Qed.
Lemma intern_inv w o : inv w -> inv (fst (intern w o)).
Proof.
  intros I. unfold intern. destruct (get_str (sing w) (s_str o)) as [i|] eqn:G.
  - cbn [fst]. destruct (s_code o); trivial. destruct (get_obj (heap w) i) as [s|]; trivial. match goal with |- inv (if ?b then _ else _) => destruct b end; trivial. now apply set_code_inv.
  - cbn [fst]. destruct I as (E & N & M & F). unfold inv. cbn. rewrite E. repeat split.
    + constructor; trivial. intros J. apply in_map_iff in J. destruct J as (q & Q & J). rewrite Forall_forall in F. specialize (F q J). lia.
    + constructor; [|now rewrite <- E]. rewrite <- E. now apply get_str_none.
    + constructor; [cbn; lia|]. eapply Forall_impl; [|exact F]. cbn. intros; lia.
Qed.
Lemma free_inv w i : inv w -> inv (free w i).
Proof.
  intros (E & N & M & F). unfold inv, free. cbn. repeat split.
  - rewrite E. clear. induction (heap w) as [|[j s] r IH]; trivial. cbn. destruct (Nat.eqb j i); cbn; [trivial|]. now rewrite IH.
  - clear - N. induction (heap w) as [|p r IH]; cbn in *; trivial. inversion N; subst. destruct (Nat.eqb (fst p) i); cbn; auto. constructor; auto. intros J. apply in_map_iff in J. destruct J as (q & Q & J). apply filter_In in J. destruct J. apply H1. apply in_map_iff. now exists q.
  - clear - M. induction (sing w) as [|p r IH]; cbn in *; trivial. inversion M; subst. destruct (Nat.eqb (snd p) i); cbn; auto. constructor; auto. intros J. apply in_map_iff in J. destruct J as (q & Q & J). apply filter_In in J. destruct J. apply H1. apply in_map_iff. now exists q.
  - apply Forall_forall. intros p J. apply filter_In in J. rewrite Forall_forall in F. now apply F.
Qed.
Lemma look_heap server w i : heap (fst (getRecord server w i)) = heap w /\ sing (fst (getRecord server w i)) = sing w /\ next (fst (getRecord server w i)) = next w.
Proof.
  unfold getRecord. destruct (get_obj (heap w) i) as [s|]; auto. destruct (s_code s); auto. destruct (adsurl w); auto. destruct (match cache w with Some l0 => get_str l0 _ | None => None end); auto.
  destruct (server _ _) as [[|r [|]]|e|]; cbn; auto. destruct (cache w); cbn; auto.
Qed.
Lemma step_inv w o : inv w -> inv (step w o).
Proof.
  intros I. destruct o as [find a b|find i b|i|c|b|server i]; cbn [step].
  - unfold newSource. destruct (match a with AText s => Some s | AObj i => option_map s_str (get_obj (heap w) i) end) as [t|]; trivial. destruct (init (adsurl w) find t b) as [o|e|]; trivial.
    pose proof (intern_inv w o I) as J. now destruct (intern w o).
  - unfold setBibcode. destruct (get_obj (heap w) i); trivial. destruct (code_of (adsurl w) find b); trivial. now apply set_code_inv.
  - now apply free_inv.
  - unfold clearCache. destruct c as [c|], (cache w) as [l|]; trivial; try exact I. destruct (get_str l c); exact I.
  - unfold useCache. destruct b; [destruct (cache w)|]; exact I.
  - destruct (look_heap server w i) as (A & B & C). unfold inv. now rewrite A, B, C.
Qed.
Lemma reach_inv w : reachable w -> inv w.
Proof.
  intros (url & h & ->). unfold run. induction h as [|o h IH] using rev_ind; [cbn; repeat split; constructor|]. rewrite fold_left_app. cbn [fold_left]. now apply step_inv.
Qed.

(** ** Theorems *)
(** C128: after any history of constructions, code changes, deletions and lookups, two living sources with the same name are the same object *)
Theorem C128_same_object : forall w i j s t, reachable w -> lives w i s -> lives w j t -> s_str s = s_str t -> i = j.
Proof.
  intros w i j s t R A B E. apply reach_inv in R. assert (P : get_str (sing w) (s_str s) = Some i) by (apply sing_lives; eauto). assert (Q : get_str (sing w) (s_str s) = Some j) by (apply sing_lives; trivial; exists t; auto). congruence.
Qed.
(** C128: the constructor returns the living source of that name if there is one (whose code is replaced if one was given), otherwise a new one; no other source changes *)
Theorem C128_new : forall w find t b n c, reachable w -> named (adsurl w) find t b n c ->
  exists w' i, newSource find w (AText t) b = (w', Ok i) /\ reachable w' /\
    (forall j s, lives w j s -> s_str s = n -> i = j /\ lives w' i (Source n (match c with Some x => Some x | None => s_code s end))) /\
    ((forall j s, lives w j s -> s_str s <> n) -> lives w' i (Source n c) /\ forall s, ~ lives w i s) /\
    (forall j, j <> i -> get_obj (heap w') j = get_obj (heap w) j).
Proof.
  intros w find t b n c R N. pose proof (reach_inv w R) as V. apply C128_names in N.
  assert (E : newSource find w (AText t) b = (fst (intern w (Source n c)), Ok (snd (intern w (Source n c))))) by (unfold newSource; rewrite N; now destruct (intern w (Source n c))).
  exists (fst (intern w (Source n c))), (snd (intern w (Source n c))). split; [exact E|]. split.
  { destruct R as (url & h & ->). exists url, (h ++ [ONew find (AText t) b]). transitivity (step (run (newWorld url) h) (ONew find (AText t) b)); [cbn [step]; now rewrite E|]. unfold run. now rewrite fold_left_app. }
  unfold intern. cbn [s_str s_code]. destruct (get_str (sing w) n) as [i|] eqn:G; cbn [fst snd].
  - destruct (proj1 (sing_lives w n i V) G) as (s & S & K). pose proof S as S'. unfold lives in S'. rewrite S'. split; [|split].
    + intros j s' L M. assert (j = i) by (eapply (C128_same_object w); eauto; congruence). subst j. split; trivial. assert (s' = s) by (unfold lives in *; congruence). subst s'.
      destruct c as [x|]; [|unfold lives; rewrite S'; destruct s; cbn in *; now subst]. destruct (s_code s) as [y|] eqn:C.
      * destruct (str_eqb x y) eqn:X; [apply eqb_true in X; subst y; unfold lives; rewrite S'; destruct s; cbn in *; congruence|]. unfold lives. cbn. rewrite get_set, Nat.eqb_refl, S'. cbn. now rewrite K.
      * unfold lives. cbn. rewrite get_set, Nat.eqb_refl, S'. cbn. now rewrite K.
    + intros Z. exfalso. apply (Z i s); trivial.
    + intros j D. destruct c as [x|]; trivial. match goal with |- context [if ?b then _ else _] => destruct b end; trivial. cbn. rewrite get_set. destruct (Nat.eqb_spec i j); congruence.
  - split; [|split].
    + intros j s L M. exfalso. assert (get_str (sing w) n = Some j) by (apply sing_lives; eauto). congruence.
    + intros _. split; [unfold lives; cbn; now rewrite Nat.eqb_refl|]. intros s L. destruct V as (_ & D & _ & F). apply get_obj_in in L; trivial. rewrite Forall_forall in F. specialize (F _ L). cbn in F. lia.
    + intros j D. cbn. destruct (Nat.eqb_spec (next w) j); congruence.
Qed.
(** C128: a construction or code change that fails changes nothing *)
Theorem C128_failed : forall w find a b i, (forall k, snd (newSource find w a b) <> Ok k) -> fst (newSource find w a b) = w /\ (snd (setBibcode find w i b) <> Ok tt -> fst (setBibcode find w i b) = w).
Proof.
  intros w find a b i H. split.
  - unfold newSource in *. destruct (match a with AText s => Some s | AObj i => option_map s_str (get_obj (heap w) i) end) as [t|]; trivial. destruct (init (adsurl w) find t b) as [o|e|]; trivial.
    destruct (intern w o) as [w' k]. exfalso. now apply (H k).
  - unfold setBibcode. destruct (get_obj (heap w) i); trivial. destruct (code_of (adsurl w) find b); trivial. intros X. exfalso. now apply X.
Qed.
(** setBibcode changes the code of that source only; None and the empty string remove it *)
Theorem C128_set : forall w find i s b c, lives w i s -> looked_up (adsurl w) find b c ->
  exists w', setBibcode find w i b = (w', Ok tt) /\ lives w' i (Source (s_str s) c) /\ forall j, j <> i -> get_obj (heap w') j = get_obj (heap w) j.
Proof.
  intros w find i s b c L U. apply lookup_ok in U. unfold setBibcode. unfold lives in L. rewrite L, U. eexists. split; [reflexivity|]. unfold lives. cbn. split.
  - now rewrite get_set, Nat.eqb_refl, L.
  - intros j D. rewrite get_set. destruct (Nat.eqb_spec i j); congruence.
Qed.
(** a source that was deleted is forgotten: its name then makes a new source without its code *)
Theorem C128_free : forall w i s find, reachable w -> lives w i s -> ~ In slash (s_str s) ->
  exists w' j, newSource find (free w i) (AText (s_str s)) BNone = (w', Ok j) /\ lives w' j (Source (s_str s) None) /\ (forall k, k <> i -> get_obj (heap (free w i)) k = get_obj (heap w) k) /\ get_obj (heap (free w i)) i = None.
Proof.
  intros w i s find R L N. assert (R' : reachable (free w i)) by (destruct R as (url & h & ->); exists url, (h ++ [OFree i]); unfold run; now rewrite fold_left_app).
  assert (G : forall k, get_obj (heap (free w i)) k = if Nat.eqb k i then None else get_obj (heap w) k).
  { intros k. cbn. clear. induction (heap w) as [|[j t] r IH]; cbn; [now destruct (Nat.eqb k i)|]. destruct (Nat.eqb_spec j i) as [->|D]; cbn.
    - destruct (Nat.eqb_spec i k) as [<-|X]; [now rewrite IH, Nat.eqb_refl|exact IH].
    - destruct (Nat.eqb_spec j k) as [->|X]; [destruct (Nat.eqb_spec k i); congruence|exact IH]. }
  destruct (C128_new (free w i) find (s_str s) BNone (s_str s) None R' (nm_plain _ _ _ N)) as (w' & j & E & _ & _ & Z & _). exists w', j. split; [exact E|]. split; [|split].
  - apply Z. intros k t K M. unfold lives in K. rewrite G in K. destruct (Nat.eqb_spec k i) as [->|D]; [discriminate|]. apply D. eapply (C128_same_object w); eauto.
  - intros k D. rewrite G. destruct (Nat.eqb_spec k i); congruence.
  - now rewrite G, Nat.eqb_refl.
Qed.
(** sources whose pickles are read back: no blanks around the name, no slash in the code (in the name, if there is no code) *)
Definition portable (s : source) : Prop := strip (s_str s) = s_str s /\ match s_code s with Some c => ~ In slash c /\ strip c = c | None => ~ In slash (s_str s) end.
Lemma pickle_named url find s : portable s -> named url find (reduced s) BNone (s_str s) (s_code s).
Proof.
  intros (A & B). unfold reduced. destruct (s_code s) as [c|] eqn:C.
  - destruct B as (N & S). rewrite <- A at 2. rewrite <- S at 2. now apply nm_unchecked.
  - rewrite app_nil_r. now apply nm_plain.
Qed.
(** C128: unpickling where the source lives gives that very object and changes nothing; elsewhere a source with the same name and code; ADS is not asked *)
Theorem C128_pickle : forall w i s find, reachable w -> lives w i s -> portable s -> unpickle find w (reduced s) = (w, Ok i).
Proof.
  intros w i s find R L P. pose proof (reach_inv w R) as V. pose proof (pickle_named (adsurl w) find s P) as N. apply C128_names in N. unfold unpickle, newSource. rewrite N. unfold intern. cbn [s_str s_code].
  rewrite (proj2 (sing_lives w (s_str s) i V)) by eauto. unfold lives in L. rewrite L. destruct (s_code s) as [c|]; trivial. now rewrite eqb_refl.
Qed.
Theorem C128_pickle_elsewhere : forall w s find, reachable w -> portable s -> (forall j t, lives w j t -> s_str t <> s_str s) -> exists w' i, unpickle find w (reduced s) = (w', Ok i) /\ lives w' i s.
Proof.
  intros w s find R P N. destruct (C128_new w find (reduced s) BNone (s_str s) (s_code s) R (pickle_named _ _ s P)) as (w' & i & E & _ & _ & Z & _). exists w', i. split; [exact E|]. destruct (Z N) as (L & _). now destruct s.
Qed.

(** ** Records *)
(** the operations that may drop the record of a code *)
Definition drops (c : str) (o : op) : Prop := match o with OClear None => True | OClear (Some k) => k = c | OUse b => b = false | _ => False end.
Definition cached (w : world) (c : str) (r : record) : Prop := exists l, cache w = Some l /\ get_str l c = Some r.
Lemma get_filter {A} (l : list (str * A)) k c : k <> c -> get_str (filter (fun p => negb (str_eqb (fst p) k)) l) c = get_str l c.
Proof.
  intros N. induction l as [|[j v] r IH]; trivial. cbn. destruct (str_eqb j k) eqn:E; cbn.
  - apply eqb_true in E. subst. now rewrite (eqb_false k c N).
  - now rewrite IH.
Qed.
Lemma intern_cache w o : cache (fst (intern w o)) = cache w /\ adsurl (fst (intern w o)) = adsurl w /\ asked (fst (intern w o)) = asked w.
Proof.
  unfold intern. destruct (get_str (sing w) (s_str o)) as [i|]; cbn; auto. destruct (s_code o); auto. destruct (get_obj (heap w) i) as [s|]; auto. match goal with |- context [if ?b then _ else _] => destruct b end; auto.
Qed.
Lemma cached_step w o c r : ~ drops c o -> cached w c r -> cached (step w o) c r.
Proof.
  intros D (l & C & G). destruct o as [find a b|find i b|i|k|b|server i]; cbn [step drops] in *.
  - unfold newSource. destruct (match a with AText s => Some s | AObj i => option_map s_str (get_obj (heap w) i) end) as [t|]; [|now exists l]. destruct (init (adsurl w) find t b) as [o|e|]; try now exists l.
    destruct (intern_cache w o) as (E & _). destruct (intern w o) as [w' j]. cbn in *. exists l. now rewrite E.
  - unfold setBibcode. destruct (get_obj (heap w) i); [|now exists l]. destruct (code_of (adsurl w) find b); now exists l.
  - now exists l.
  - unfold clearCache. rewrite C. destruct k as [k|]; [|tauto]. destruct (get_str l k); [|now exists l]. eexists. split; [reflexivity|]. now rewrite get_filter.
  - destruct b; [|congruence]. unfold useCache. rewrite C. now exists l.
  - unfold getRecord. destruct (get_obj (heap w) i) as [s|]; [|now exists l]. destruct (s_code s) as [k|]; [|now exists l]. destruct (adsurl w); [|now exists l]. rewrite C. destruct (get_str l k) as [x|] eqn:K; [now exists l|].
    destruct (server _ _) as [[|x [|]]|e|]; cbn; try (now exists l). eexists. split; [reflexivity|]. cbn. rewrite eqb_false; trivial. intros ->. congruence.
Qed.
Lemma run_app w h1 h2 : run w (h1 ++ h2) = run (run w h1) h2.
Proof. unfold run. apply fold_left_app. Qed.
(** C128: once a record was fetched with the cache on, every later lookup of that code, by any source, gives the same record without asking ADS, until the cache is cleared or switched off *)
Theorem C128_record_kept : forall server w i s c w' r h, lives w i s -> s_code s = Some c -> cache w <> None -> getRecord server w i = (w', Ok r) -> (forall o, In o h -> ~ drops c o) ->
  forall server' j t, lives (run w' h) j t -> s_code t = Some c -> adsurl (run w' h) = true -> getRecord server' (run w' h) j = (run w' h, Ok r).
Proof.
  intros server w i s c w' r h L C K G D server' j t L' C' U.
  assert (E : cached w' c r).
  { unfold getRecord in G. unfold lives in L. rewrite L, C in G. destruct (adsurl w); [|discriminate]. destruct (cache w) as [l|] eqn:CW; [|congruence]. destruct (get_str l c) as [x|] eqn:X; [injection G as <- <-; exists l; auto|].
    destruct (server _ _) as [[|x [|]]|e|]; try discriminate. injection G as <- <-. eexists. split; [reflexivity|]. cbn. now rewrite eqb_refl. }
  assert (E' : cached (run w' h) c r). { clear - E D. revert w' E. induction h as [|o h IH]; intros w' E; trivial. cbn. apply IH; [intros o' I; apply D; now right|]. apply cached_step; trivial. apply D. now left. }
  destruct E' as (l & CL & X). unfold getRecord. unfold lives in L'. now rewrite L', C', U, CL, X.
Qed.
(** a source without a code, or with adsurl not set: SourceDataError, and nothing is asked *)
Theorem C128_record_none : forall server w i s, lives w i s -> s_code s = None \/ adsurl w = false -> getRecord server w i = (w, Raise SourceDataError).
Proof. intros server w i s L H. unfold getRecord. unfold lives in L. rewrite L. destruct (s_code s); trivial. destruct H as [H| ->]; [discriminate|trivial]. Qed.
(** a code that is not in the cache (never fetched, cleared, or the cache is off) is asked once; one record is the answer; none or several are an error and are not kept *)
Theorem C128_record_fresh : forall server w i s c, lives w i s -> s_code s = Some c -> adsurl w = true -> (forall r, ~ cached w c r) ->
  asked (fst (getRecord server w i)) = asked w ++ [c] /\
  match server (List.length (asked w)) c with
  | Ok [r] => snd (getRecord server w i) = Ok r /\ (cache w <> None -> cached (fst (getRecord server w i)) c r)
  | Ok [] => snd (getRecord server w i) = Raise IndexError /\ cache (fst (getRecord server w i)) = cache w
  | Ok _ => snd (getRecord server w i) = Raise SourceDataError /\ cache (fst (getRecord server w i)) = cache w
  | Raise e => snd (getRecord server w i) = Raise e /\ cache (fst (getRecord server w i)) = cache w
  | OutOfFuel => True
  end.
Proof.
  intros server w i s c L C U N. unfold getRecord. unfold lives in L. rewrite L, C, U. assert (G : match cache w with Some l => get_str l c | None => None end = None).
  { destruct (cache w) as [l|] eqn:E; trivial. destruct (get_str l c) as [r|] eqn:X; trivial. exfalso. apply (N r). now exists l. }
  rewrite G. cbv zeta. destruct (server (List.length (asked w)) c) as [[|r [|]]|e|]; cbn [fst snd]; try (split; [reflexivity|]; auto). split; [destruct (cache w); reflexivity|]. split; trivial. destruct (cache w) as [l|]; [|congruence]. intros _. eexists. split; [reflexivity|]. cbn. now rewrite eqb_refl.
Qed.
Theorem C128_clear : forall w c r, (cache w <> None -> ~ cached (fst (clearCache w None)) c r) /\ ~ cached (useCache w false) c r /\ (cached w c r -> snd (clearCache w (Some c)) = Ok tt /\ forall x, ~ cached (fst (clearCache w (Some c))) c x).
Proof.
  intros w c r. split; [|split].
  - unfold clearCache. destruct (cache w) as [l|]; [|congruence]. intros _ (l' & E & G). cbn in E. injection E as <-. discriminate.
  - intros (l & E & _). discriminate.
  - intros (l & E & G). unfold clearCache. rewrite E, G. split; trivial. intros x (l' & E' & G'). cbn in E'. injection E' as <-. clear - G'. induction l as [|[j v] t IH]; [discriminate|]. cbn in G'. destruct (str_eqb j c) eqn:J; cbn in G'; [auto|]. rewrite J in G'. auto.
Qed.

(** ** Findings *)
(** Source(source) is not always that source: a slash in its name is read as a code *)
Theorem C128_copy_refuted : forall find, exists w i, newSource find (newWorld false) (AText (L "a/b")) (BStr []) = (w, Ok i) /\ snd (newSource find w (AObj i) BNone) <> Ok i.
Proof. intros find. eexists. exists 0. split; [reflexivity|]. vm_compute. discriminate. Qed.
(** nor is a pickle of it read back, nor one of a source whose code has a slash (as a DOI has) *)
Theorem C128_pickle_refuted : forall find, exists w i s, lives w i s /\ newSource find (newWorld false) (AText (L "a")) (BStr (L "doi:10.1/2")) = (w, Ok i) /\ snd (unpickle find w (reduced s)) <> Ok i.
Proof. intros find. eexists. exists 0, (Source (L "a") (Some (L "doi:10.1/2"))). split; [|split; [reflexivity|]]; [reflexivity|]. vm_compute. discriminate. Qed.
(** the cache cannot be cleared after it was switched off *)
Theorem C128_clear_disabled_refuted : forall w, snd (clearCache (useCache w false) None) = Raise AttributeError.
Proof. reflexivity. Qed.
Example C128_named_ex : forall find, named true find (L "Smith (2003)//2003ApJ...1") BNone (L "Smith (2003)") (Some (L "2003ApJ...1")).
Proof. intros find. apply (nm_unchecked true find (L "Smith (2003)") (L "2003ApJ...1")). vm_compute. intuition discriminate. Qed.
Example C128_ex : forall find, let w := run (newWorld true) [ONew find (AText (L "a//x")) BNone; ONew find (AText (L "b//x")) BNone] in
  reachable w /\ lives w 0 (Source (L "a") (Some (L "x"))) /\ lives w 1 (Source (L "b") (Some (L "x"))) /\ portable (Source (L "a") (Some (L "x"))) /\ getRecord (fun _ _ => Ok [7]) w 0 = (World (heap w) (sing w) 2 (Some [(L "x", 7)]) true [L "x"], Ok 7).
Proof. intros find w. split; [now exists true, [ONew find (AText (L "a//x")) BNone; ONew find (AText (L "b//x")) BNone]|]. repeat split; vm_compute; intuition discriminate. Qed.
