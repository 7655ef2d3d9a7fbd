(** * FnProof: C129, nodes with Fields *)
From Coq Require Import List ZArith Lia Bool Permutation Ascii String.
From Verif Require Import PyBase PubModel IoColumns FieldModel FieldProofs FieldProps FnModel.
Import ListNotations.

Section Proofs.
Context {V : Type}.
Variable int_src : Z -> nat.
Notation world := (@world V).
Notation fobj := (@fobj V).

(** ** Specification: histories *)
Inductive op :=
| OMake (name : str) (ty : @ftype V)          (* Field(name,type) *)
| OAdd (n : nat) (a : farg)                    (* node.addField(...) *)
| ODel (n : nat) (k : str)                     (* node.delField(...) *)
| OSet (n : nat) (k : nkey) (a : @carg V)      (* node[k] = a *)
| OTo (n : nat) (src : @key V) (m : missing)   (* node.setToSource(src,m) *)
| OChange (i : nat) (o : @fop V).              (* any change of a Field itself *)
Definition step (w : world) (o : op) : world :=
  match o with
  | OMake s ty => makeField w s ty
  | OAdd n a => fst (addField w n a)
  | ODel n k => fst (delField w n k)
  | OSet n k a => fst (setitem w n k a)
  | OTo n src m => fst (setToSource w n src m)
  | OChange i o => changeField int_src w i o
  end.
(** Fields that are used exist (and are not given values at Source keys, see C13) *)
Definition op_ok (w : world) (o : op) : Prop := match o with OAdd _ (FObj i) => i < nextf w | OChange i o => i < nextf w /\ fop_ok o | _ => True end.
Inductive reach : world -> Prop :=
| reach_new : reach newWorld
| reach_step w o : reach w -> op_ok w o -> reach (step w o).
(** Field number i is a Field of node n *)
Definition in_node (w : world) (n i : nat) : Prop := In (f_name (fobjs w i)) (n_names (nodes w n)) /\ n_attr (nodes w n) (f_name (fobjs w i)) = Some i.

(** ** Lemmas *)
Lemma eqb_refl (a : str) : str_eqb a a = true. Proof. now apply str_eqb_spec. Qed.
Lemma eqb_neq (a b : str) : a <> b -> str_eqb a b = false. Proof. intros N. destruct (str_eqb a b) eqn:E; trivial. apply str_eqb_spec in E. congruence. Qed.
Lemma has_in l k : has l k = true <-> In k l.
Proof. unfold has. rewrite existsb_exists. split; [intros (x & I & E); apply str_eqb_spec in E; now subst|intros I; exists k; split; [trivial|apply eqb_refl]]. Qed.
Lemma has_out l k : has l k = false <-> ~ In k l.
Proof. rewrite <- has_in. destruct (has l k); split; congruence. Qed.
Lemma upd_same {A} (f : nat -> A) i x : upd f i x i = x. Proof. unfold upd. now rewrite Nat.eqb_refl. Qed.
Lemma upd_other {A} (f : nat -> A) i j x : j <> i -> upd f i x j = f j. Proof. intros N. unfold upd. destruct (Nat.eqb_spec j i); congruence. Qed.
Lemma upds_same {A} (f : str -> A) i x : upds f i x i = x. Proof. unfold upds. now rewrite eqb_refl. Qed.
Lemma upds_other {A} (f : str -> A) i j x : j <> i -> upds f i x j = f j. Proof. intros N. unfold upds. now rewrite eqb_neq. Qed.
Lemma remove1_in k l x : NoDup l -> (In x (remove1 k l) <-> In x l /\ x <> k).
Proof.
  induction l as [|a r IH]; cbn; [tauto|]. intros N. inversion N as [|? ? X Y]; subst. destruct (str_eqb a k) eqn:E.
  - apply str_eqb_spec in E. subst. split; [intros I; split; [now right|congruence]|]. intros ([->|I] & D); [congruence|trivial].
  - cbn. rewrite IH by trivial. assert (a <> k) by (intros ->; now rewrite eqb_refl in E). split; [intros [->|(I & D)]; auto|]. intros ([->|I] & D); auto.
Qed.
Lemma remove1_nodup k l : NoDup l -> NoDup (remove1 k l).
Proof.
  induction l as [|a r IH]; cbn; trivial. intros N. inversion N as [|? ? X Y]; subst. destruct (str_eqb a k); trivial. constructor; auto. intros I. apply remove1_in in I; trivial. tauto.
Qed.
Lemma remove1_filter k l : NoDup l -> remove1 k l = filter (fun s => negb (str_eqb s k)) l.
Proof.
  induction l as [|a r IH]; cbn; trivial. intros N. inversion N as [|? ? X Y]; subst. destruct (str_eqb a k) eqn:E; cbn; [|f_equal; auto].
  apply str_eqb_spec in E. subst. clear -X. induction r as [|b r IH]; cbn; trivial. rewrite eqb_neq by (intros ->; apply X; now left). cbn. f_equal. apply IH. intros I. apply X. now right.
Qed.
Lemma length_app4 (a b : str) : List.length b = 4 -> Nat.leb 4 (List.length (a ++ b)) = true. Proof. intros E. rewrite app_length, E. apply Nat.leb_le. lia. Qed.
Lemma suffix_app (a b : str) : List.length b = 4 -> suffix (a ++ b) = b.
Proof. intros E. unfold suffix. rewrite app_length, E, Nat.add_sub. now rewrite skipn_app, skipn_all, Nat.sub_diag. Qed.
Lemma body_app (a b : str) : List.length b = 4 -> body (a ++ b) = a.
Proof. intros E. unfold body. rewrite app_length, E, Nat.add_sub. now rewrite firstn_app, firstn_all, Nat.sub_diag, app_nil_r. Qed.
Lemma src_unique (ty : @ftype V) f (v v' : @fval V) : FieldProps.reachable ty int_src f -> In v (vals f) -> In v' (vals f) -> v_src v = v_src v' -> v = v'.
Proof.
  intros R I J E. pose proof (C13_unique_sources _ _ _ _ R) as N. clear R. revert N I J. induction (vals f) as [|a r IH]; cbn; [tauto|]. intros N. inversion N as [|? ? X Y]; subst.
  assert (Z : forall u, In u r -> v_src u <> v_src a) by (intros u U Q; apply X; rewrite <- Q; now apply in_map).
  intros [->|I] [->|J]; auto; exfalso; [now apply (Z v')|now apply (Z v)].
Qed.
Lemma py_get_neg (l : list str) j : j < List.length l -> py_get l (Z.of_nat j - Z.of_nat (List.length l)) = nth_error l j.
Proof.
  intros J. unfold py_get, py_index. destruct (Z.leb_spec 0 (Z.of_nat j - Z.of_nat (List.length l))); [lia|]. rewrite Z.sub_add. destruct (Z.leb_spec 0 (Z.of_nat j)); [|lia]. now rewrite Nat2Z.id.
Qed.
Definition ginv (w : world) : Prop :=
  (forall n, NoDup (n_names (nodes w n)) /\ forall s, In s (n_names (nodes w n)) -> exists i, n_attr (nodes w n) s = Some i /\ i < nextf w /\ f_name (fobjs w i) = s /\ f_node (fobjs w i) = Some n) /\
  (forall i, FieldProps.reachable (f_type (fobjs w i)) int_src (f_vals (fobjs w i))).
(** only values of Fields differ *)
Definition shape (w w' : world) : Prop := nodes w' = nodes w /\ nextf w' = nextf w /\ forall i, f_name (fobjs w' i) = f_name (fobjs w i) /\ f_type (fobjs w' i) = f_type (fobjs w i) /\ f_node (fobjs w' i) = f_node (fobjs w i).
Lemma shape_refl w : shape w w. Proof. repeat split. Qed.
Lemma shape_trans a b c : shape a b -> shape b c -> shape a c.
Proof. intros (A & B & C) (D & E & F). repeat split; try congruence; destruct (C i) as (? & ? & ?), (F i) as (? & ? & ?); congruence. Qed.
Lemma shape_set w i f : shape w (with_field w i (set_vals (fobjs w i) f)).
Proof. repeat split; cbn; unfold upd; destruct (Nat.eqb_spec i0 i); subst; trivial. Qed.
Lemma shape_inv w w' : ginv w -> shape w w' -> (forall i, FieldProps.reachable (f_type (fobjs w' i)) int_src (f_vals (fobjs w' i))) -> ginv w'.
Proof.
  intros (A & _) (N & M & F) R. split; trivial. intros n. rewrite N. destruct (A n) as (D & H). split; trivial. intros s I. destruct (H s I) as (i & P & Q & S & T). exists i. destruct (F i) as (F1 & _ & F3). rewrite M, F1, F3. auto.
Qed.
Lemma freach_step (ty : @ftype V) f o : fop_ok o -> FieldProps.reachable ty int_src f -> FieldProps.reachable ty int_src (fstep ty int_src f o).
Proof. intros O (ops & F & ->). exists (ops ++ [o]). split; [apply Forall_app; auto|]. unfold frun. now rewrite fold_left_app. Qed.
Lemma fcurr_reach (ty : @ftype V) f a : FieldProps.reachable ty int_src f -> FieldProps.reachable ty int_src (fst (setCurr ty f a)).
Proof. intros R. apply (freach_step ty f (FCurr a)); trivial. exact I. Qed.
Lemma set_reach w i f : ginv w -> FieldProps.reachable (f_type (fobjs w i)) int_src f -> forall j, FieldProps.reachable (f_type (fobjs (with_field w i (set_vals (fobjs w i) f)) j)) int_src (f_vals (fobjs (with_field w i (set_vals (fobjs w i) f)) j)).
Proof. intros (_ & R) F j. cbn. unfold upd. destruct (Nat.eqb_spec j i); subst; [exact F|apply R]. Qed.
Lemma set_inv w i f : ginv w -> FieldProps.reachable (f_type (fobjs w i)) int_src f -> ginv (with_field w i (set_vals (fobjs w i) f)).
Proof. intros G F. apply (shape_inv w); trivial; [apply shape_set|now apply set_reach]. Qed.
Lemma toSource_inv n src m l : forall w, ginv w -> ginv (fst (toSource w n src m l)) /\ shape w (fst (toSource w n src m l)).
Proof.
  induction l as [|s r IH]; intros w G; cbn [toSource]; [split; [exact G|apply shape_refl]|]. destruct (n_attr (nodes w n) s) as [i|]; [|split; [exact G|apply shape_refl]].
  destruct (contains (f_vals (fobjs w i)) src) as [[|]|e|]; try (split; [exact G|apply shape_refl]).
  - pose proof (fcurr_reach _ _ (CKey src) (proj2 G i)) as F. destruct (setCurr (f_type (fobjs w i)) (f_vals (fobjs w i)) (CKey src)) as [f [u|e|]]; cbn [fst] in *.
    + destruct (IH _ (set_inv w i f G F)) as (A & B). split; [exact A|]. eapply shape_trans; [apply shape_set|exact B].
    + split; [now apply set_inv|apply shape_set].
    + split; [now apply set_inv|apply shape_set].
  - destruct m; try (split; [exact G|apply shape_refl]); apply IH; exact G.
Qed.
Lemma make_inv w s ty : ginv w -> ginv (makeField w s ty).
Proof.
  intros (A & R). split.
  - intros n. cbn. destruct (A n) as (D & H). split; trivial. intros k K. destruct (H k K) as (i & P & Q & S & T). exists i. rewrite upd_other by lia. repeat split; trivial. lia.
  - intros i. cbn. unfold upd. destruct (Nat.eqb i (nextf w)); [|apply R]. exists []. split; constructor.
Qed.
Lemma addObj_inv w n i : ginv w -> i < nextf w -> ginv (fst (addObj w n i)).
Proof.
  intros (A & R) L. unfold addObj. destruct (has _ _) eqn:H; [split; trivial|]. apply has_out in H. destruct (f_node (fobjs w i)) as [n'|] eqn:F; cbn [fst].
  - split; [|exact R]. intros m. cbn. unfold upd. destruct (Nat.eqb_spec m n) as [->|N]; [|apply A]. cbn. destruct (A n) as (D & K). split; trivial. intros s I. rewrite upds_other by congruence. now apply K.
  - split.
    + intros m. cbn. unfold upd at 1. destruct (Nat.eqb_spec m n) as [->|N]; cbn [n_names n_attr].
      * destruct (A n) as (D & K). rewrite upd_same. cbn [n_names n_attr]. split.
        -- apply (Permutation_NoDup (Permutation_cons_append _ _)). now constructor.
        -- intros s I. apply in_app_or in I. destruct I as [I|[<-|[]]].
           ++ rewrite upds_other by congruence. destruct (K s I) as (j & P & Q & S & T). exists j. rewrite upd_other by congruence. auto.
           ++ rewrite upds_same. exists i. rewrite upd_same. auto.
      * unfold upd at 1. destruct (Nat.eqb_spec m n); [congruence|]. destruct (A m) as (D & K). split; trivial. intros s I. rewrite upd_other by trivial. destruct (K s I) as (j & P & Q & S & T). exists j. rewrite upd_other by congruence. auto.
    + intros j. cbn. unfold upd. destruct (Nat.eqb_spec j i); subst; apply R.
Qed.
Lemma step_inv w o : ginv w -> op_ok w o -> ginv (step w o).
Proof.
  intros G O. destruct o as [s ty|n a|n k|n k a|n src m|i o]; cbn [step].
  - now apply make_inv.
  - destruct a as [s|i|]; cbn [addField]; [apply addObj_inv; [now apply make_inv|cbn; lia]|now apply addObj_inv|exact G].
  - unfold delField. destruct (has _ _) eqn:H; [|exact G]. cbn [fst]. destruct G as (A & R). split; [|exact R]. intros m. cbn. unfold upd. destruct (Nat.eqb_spec m n) as [->|N]; [|apply A]. cbn.
    destruct (A n) as (D & K). split; [now apply remove1_nodup|]. intros s I. apply remove1_in in I; trivial. destruct I as (I & E). rewrite upds_other by trivial. now apply K.
  - unfold setitem. destruct (match k with NInt z => _ | NStr s => _ end) as [s|]; [|exact G]. destruct (n_attr (nodes w n) s) as [i|]; [|exact G].
    pose proof (fcurr_reach _ _ a (proj2 G i)) as F. destruct (setCurr (f_type (fobjs w i)) (f_vals (fobjs w i)) a) as [f r]. now apply set_inv.
  - unfold setToSource. destruct m; try exact G; now apply toSource_inv.
  - unfold changeField. apply set_inv; trivial. apply freach_step; [apply O|apply G].
Qed.
Lemma reach_inv w : reach w -> ginv w.
Proof.
  induction 1 as [|w o R IH O]; [|now apply step_inv]. split; [intros n; cbn; split; [constructor|intros s []]|]. intros i. exists []. split; constructor.
Qed.

(** ** Theorems *)
(** C129: after any history the names of the Fields of a node are distinct, each leads to a Field of that name which says that it belongs to this node; no Field is in two nodes or twice in one; each Field has at most one value per source *)
Theorem C129_fields : forall w n, reach w ->
  NoDup (n_names (nodes w n)) /\
  (forall s, In s (n_names (nodes w n)) -> exists i, in_node w n i /\ f_name (fobjs w i) = s /\ f_node (fobjs w i) = Some n /\ NoDup (map v_src (vals (f_vals (fobjs w i))))) /\
  (forall m i, in_node w n i -> in_node w m i -> m = n) /\
  (forall i j, in_node w n i -> in_node w n j -> f_name (fobjs w i) = f_name (fobjs w j) -> i = j).
Proof.
  intros w n R. destruct (reach_inv w R) as (A & F). destruct (A n) as (D & K). split; trivial. split; [|split].
  - intros s I. destruct (K s I) as (i & P & _ & S & T). exists i. unfold in_node. rewrite S. repeat split; trivial. eapply C13_unique_sources. apply F.
  - intros m i (I & P) (J & Q). destruct (K _ I) as (i' & P' & _ & _ & T). destruct (proj2 (A m) _ J) as (i'' & Q' & _ & _ & T'). congruence.
  - intros i j (_ & P) (_ & Q) E. congruence.
Qed.
(** C129: adding a Field that is in no node under a new name appends that name; everything else stays *)
Theorem C129_add : forall w n i, reach w -> i < nextf w -> f_node (fobjs w i) = None -> ~ In (f_name (fobjs w i)) (n_names (nodes w n)) ->
  exists w', addField w n (FObj i) = (w', Ok tt) /\ n_names (nodes w' n) = n_names (nodes w n) ++ [f_name (fobjs w i)] /\ in_node w' n i /\
    (forall m, m <> n -> nodes w' m = nodes w m) /\ (forall j, f_vals (fobjs w' j) = f_vals (fobjs w j) /\ f_name (fobjs w' j) = f_name (fobjs w j)) /\ (forall j, in_node w n j -> in_node w' n j).
Proof.
  intros w n i R L F N. cbn [addField]. unfold addObj. rewrite (proj2 (has_out _ _) N), F. eexists. split; [reflexivity|]. unfold in_node. cbn. rewrite !upd_same. cbn. repeat split.
  - apply in_or_app. right. now left.
  - apply upds_same.
  - intros m D. now rewrite upd_other.
  - unfold upd. destruct (Nat.eqb_spec j i); subst; trivial.
  - unfold upd. destruct (Nat.eqb_spec j i); subst; trivial.
  - destruct H as (I & _). unfold upd. destruct (Nat.eqb_spec j i); subst; cbn; apply in_or_app; auto.
  - destruct H as (I & P). rewrite upds_other; [unfold upd; destruct (Nat.eqb_spec j i); subst; trivial|]. unfold upd. destruct (Nat.eqb_spec j i) as [->|]; cbn; [tauto|]. intros E. congruence.
Qed.
Theorem C129_add_name : forall w n s, reach w -> ~ In s (n_names (nodes w n)) ->
  exists w' i, addField w n (FName s) = (w', Ok tt) /\ n_names (nodes w' n) = n_names (nodes w n) ++ [s] /\ in_node w' n i /\ FnModel.getitem w' n (NStr s) = Ok Nothing.
Proof.
  intros w n s R N. cbn [addField]. unfold addObj. cbn. rewrite !upd_same. cbn. rewrite (proj2 (has_out _ _) N). eexists. exists (nextf w). split; [reflexivity|]. cbn. rewrite !upd_same. cbn. repeat split.
  - cbn. rewrite !upd_same. cbn. apply in_or_app. right. now left.
  - cbn. rewrite !upd_same. cbn. apply upds_same.
  - unfold FnModel.getitem, parse_key. cbn [nodes with_field with_node makeField fobjs]. rewrite !upd_same. cbn [n_names n_attr]. rewrite (proj2 (has_in _ _)) by (apply in_or_app; right; now left). cbn [bindr]. rewrite upds_same. now rewrite upd_same.
Qed.
(** a name that is taken, a Field of some node, or something else: ValueError; names, Fields and values stay *)
Theorem C129_add_failed : forall (w : world) n a, (match a with FName s => In s (n_names (nodes w n)) | FObj i => In (f_name (fobjs w i)) (n_names (nodes w n)) \/ f_node (fobjs w i) <> None | FBad => True end) ->
  snd (addField w n a) = Raise ValueError /\ (forall m, n_names (nodes (fst (addField w n a)) m) = n_names (nodes w m)) /\ (forall j, j < nextf w -> fobjs (fst (addField w n a)) j = fobjs w j) /\
  (forall m s, In s (n_names (nodes w m)) -> n_attr (nodes (fst (addField w n a)) m) s = n_attr (nodes w m) s).
Proof.
  intros w n a H. destruct a as [s|i|]; cbn [addField].
  - unfold addObj. cbn. rewrite upd_same. cbn. rewrite (proj2 (has_in _ _) H). cbn. repeat split. intros j J. apply upd_other. lia.
  - unfold addObj. destruct (has _ _) eqn:E; [cbn; auto|]. apply has_out in E. destruct H as [H|H]; [contradiction|]. destruct (f_node (fobjs w i)); [|congruence]. cbn. repeat split; trivial.
    + intros m. unfold upd. destruct (Nat.eqb_spec m n); subst; trivial.
    + intros m s I. unfold upd. destruct (Nat.eqb_spec m n); subst; trivial. cbn. apply upds_other. congruence.
  - cbn. auto.
Qed.
(** C129: deleting removes that name only; an absent one is a KeyError that changes nothing *)
Theorem C129_del : forall w n k, reach w ->
  (In k (n_names (nodes w n)) -> exists w', delField w n k = (w', Ok tt) /\ n_names (nodes w' n) = filter (fun s => negb (str_eqb s k)) (n_names (nodes w n)) /\
     (forall m, m <> n -> nodes w' m = nodes w m) /\ fobjs w' = fobjs w /\ (forall i, in_node w' n i <-> in_node w n i /\ f_name (fobjs w i) <> k)) /\
  (~ In k (n_names (nodes w n)) -> delField w n k = (w, Raise KeyError)).
Proof.
  intros w n k R. destruct (reach_inv w R) as (A & _). destruct (A n) as (D & K). split.
  - intros I. unfold delField. rewrite (proj2 (has_in _ _) I). eexists. split; [reflexivity|]. cbn. rewrite !upd_same. cbn. split; [now apply remove1_filter|]. split; [intros m N; now rewrite upd_other|]. split; [reflexivity|].
    intros i. unfold in_node. cbn. rewrite upd_same. cbn. rewrite remove1_in by trivial. split.
    + intros ((J & N) & P). rewrite upds_other in P by trivial. auto.
    + intros ((J & P) & N). now rewrite upds_other.
  - intros N. unfold delField. now rewrite (proj2 (has_out _ _) N).
Qed.
(** C129: reading.  node[name] is the current value of that Field, None when it has no value; node[name_src] its source and node[name_err] its errors (when no Field has that longer name) *)
Definition shown (f : @field V) (show : @fval V -> @answer V) : @answer V := match vals f with [] => Nothing | v :: _ => show v end.
Theorem C129_get : forall w n i, reach w -> in_node w n i ->
  FnModel.getitem w n (NStr (f_name (fobjs w i))) = Ok (shown (f_vals (fobjs w i)) (fun v => Value (v_val v))) /\
  (~ In (f_name (fobjs w i) ++ L "_src") (n_names (nodes w n)) -> FnModel.getitem w n (NStr (f_name (fobjs w i) ++ L "_src")) = Ok (shown (f_vals (fobjs w i)) (fun v => Src (v_src v)))) /\
  (~ In (f_name (fobjs w i) ++ L "_err") (n_names (nodes w n)) -> FnModel.getitem w n (NStr (f_name (fobjs w i) ++ L "_err")) = Ok (shown (f_vals (fobjs w i)) (fun v => Errs (v_errs v)))).
Proof.
  intros w n i R (I & P). unfold FnModel.getitem, parse_key, shown. rewrite (proj2 (has_in _ _) I). cbn [bindr]. rewrite P. unfold getCurr. split; [destruct (vals (f_vals (fobjs w i))); reflexivity|]. split.
  - intros N. rewrite (proj2 (has_out _ _) N), suffix_app, body_app, length_app4 by reflexivity. rewrite eqb_refl. cbn [andb bindr]. rewrite P. destruct (vals (f_vals (fobjs w i))); reflexivity.
  - intros N. rewrite (proj2 (has_out _ _) N), suffix_app, body_app, length_app4 by reflexivity. replace (str_eqb (L "_err") (L "_src")) with false by reflexivity. rewrite eqb_refl. cbn [andb bindr]. rewrite P. destruct (vals (f_vals (fobjs w i))); reflexivity.
Qed.
(** C129: node[j] and node[j]=... with an index are those of the j-th name (counted from the end when negative) *)
Theorem C129_index : forall w n (j : nat) s a, reach w -> nth_error (n_names (nodes w n)) j = Some s ->
  (FnModel.getitem w n (NInt (Z.of_nat j)) = FnModel.getitem w n (NStr s) /\ FnModel.getitem w n (NInt (Z.of_nat j - Z.of_nat (List.length (n_names (nodes w n))))) = FnModel.getitem w n (NStr s)) /\
  FnModel.setitem w n (NInt (Z.of_nat j)) a = FnModel.setitem w n (NStr s) a /\
  nth_error (values w n) j = Some (match FnModel.getitem w n (NStr s) with Ok (Value x) => Some x | _ => None end).
Proof.
  intros w n j s a R E. destruct (reach_inv w R) as (A & _). destruct (A n) as (D & K). pose proof (nth_error_In _ _ E) as I. assert (J : j < List.length (n_names (nodes w n))) by (apply nth_error_Some; congruence).
  assert (G : py_get (n_names (nodes w n)) (Z.of_nat j) = Some s) by (rewrite py_get_nat; trivial).
  assert (G' : py_get (n_names (nodes w n)) (Z.of_nat j - Z.of_nat (List.length (n_names (nodes w n)))) = Some s) by (rewrite py_get_neg; trivial).
  unfold FnModel.getitem, FnModel.setitem, parse_key. rewrite G, G', (proj2 (has_in _ _) I). repeat split. unfold values. rewrite (map_nth_error _ _ _ E). cbn [bindr]. destruct (K s I) as (i & P & _). rewrite P. unfold getCurr. destruct (vals (f_vals (fobjs w i))); reflexivity.
Qed.
(** C129: node[name] = a is field.currentobj = a for the Field of that name and changes no other Field and no node; a name that is not there is an IndexError that changes nothing *)
Theorem C129_set : forall w n i a, reach w -> in_node w n i ->
  snd (FnModel.setitem w n (NStr (f_name (fobjs w i))) a) = snd (setCurr (f_type (fobjs w i)) (f_vals (fobjs w i)) a) /\
  f_vals (fobjs (fst (FnModel.setitem w n (NStr (f_name (fobjs w i))) a)) i) = fst (setCurr (f_type (fobjs w i)) (f_vals (fobjs w i)) a) /\
  (forall j, j <> i -> fobjs (fst (FnModel.setitem w n (NStr (f_name (fobjs w i))) a)) j = fobjs w j) /\
  nodes (fst (FnModel.setitem w n (NStr (f_name (fobjs w i))) a)) = nodes w /\
  (forall k, ~ In k (n_names (nodes w n)) -> FnModel.setitem w n (NStr k) a = (w, Raise IndexError)).
Proof.
  intros w n i a R (I & P). unfold FnModel.setitem. rewrite (proj2 (has_in _ _) I), P. destruct (setCurr _ _ a) as [f r]. cbn. rewrite upd_same. repeat split; trivial.
  - intros j N. now apply upd_other.
  - intros k N. now rewrite (proj2 (has_out _ _) N).
Qed.
(** C129: an observed value put in with node[name] = (source,value) is what node[name], node[name_src] and node[name_err] then show *)
Theorem C129_set_get : forall w n i s x es, reach w -> in_node w n i ->
  let w' := fst (FnModel.setitem w n (NStr (f_name (fobjs w i))) (CInp (IPairErr s x es))) in
  snd (FnModel.setitem w n (NStr (f_name (fobjs w i))) (CInp (IPairErr s x es))) = Ok tt /\ in_node w' n i /\
  (exists v, vals (f_vals (fobjs w' i)) = v :: except s (vals (f_vals (fobjs w i))) /\ v_src v = s /\ v_val v = x /\ v_errs v = es) /\
  FnModel.getitem w' n (NStr (f_name (fobjs w i))) = Ok (Value x).
Proof.
  intros w n i s x es R H w'. destruct (C129_set w n i (CInp (IPairErr s x es)) R H) as (S1 & S2 & S3 & S4 & _).
  destruct (C14_set_current V (f_type (fobjs w i)) int_src (f_vals (fobjs w i)) (proj2 (reach_inv w R) i)) as (_ & C).
  destruct (proj2 (C (IPairErr s x es) _ eq_refl) I) as (f' & Ef & Ev). rewrite Ef in S1, S2. cbn [fst snd v_src] in *.
  assert (Nm : f_name (fobjs w' i) = f_name (fobjs w i)).
  { unfold w', FnModel.setitem. destruct H as (H & P). rewrite (proj2 (has_in _ _) H), P, Ef. cbn. now rewrite upd_same. }
  assert (H' : in_node w' n i) by (unfold in_node; rewrite Nm; fold w' in S4; rewrite S4; exact H).
  split; [exact S1|]. split; [exact H'|]. fold w' in S2. split.
  - rewrite S2, Ev. eexists. split; [reflexivity|]. repeat split.
  - assert (R' : reach w') by exact (reach_step w (OSet n (NStr (f_name (fobjs w i))) (CInp (IPairErr s x es))) R I).
    destruct (C129_get w' n i R' H') as (G & _). rewrite Nm in G. rewrite G. unfold shown. now rewrite S2, Ev.
Qed.
(** C129: setToSource moves, in each Field of the node that has a value of the source, that value to the front, and changes nothing else *)
Lemma toSource_skip src s n l : names_source src s -> forall w, ginv w -> NoDup l -> (forall k, In k l -> In k (n_names (nodes w n))) ->
  snd (toSource w n src Skip l) = Ok tt /\
  (forall i, in_node w n i -> In (f_name (fobjs w i)) l -> forall v, In v (vals (f_vals (fobjs w i))) -> v_src v = s -> vals (f_vals (fobjs (fst (toSource w n src Skip l)) i)) = v :: except s (vals (f_vals (fobjs w i)))) /\
  (forall i, ~ (in_node w n i /\ In (f_name (fobjs w i)) l /\ In s (map v_src (vals (f_vals (fobjs w i))))) -> fobjs (fst (toSource w n src Skip l)) i = fobjs w i).
Proof.
  intros Hs. induction l as [|k r IH]; intros w G D Sub; cbn [toSource]; [cbn; repeat split; intros; tauto|].
  inversion D as [|? ? Nk Dr]; subst. destruct (proj2 (proj1 G n) k (Sub k (or_introl eq_refl))) as (i & P & _ & Nm & _). rewrite P.
  pose proof (proj2 G i) as Ri. destruct (C14_lookup V _ _ _ src s Ri Hs) as (LY & LN). unfold contains.
  destruct (in_dec Nat.eq_dec s (map v_src (vals (f_vals (fobjs w i))))) as [Y|N].
  - apply in_map_iff in Y. destruct Y as (v & Ev & Iv). destruct (LY v Iv Ev) as (p & Gp & Np). rewrite Gp.
    destruct (C14_set_current V _ _ _ Ri) as (C & _). destruct (C src p v Gp Np) as (f' & Ef & Vf). pose proof (fcurr_reach _ _ (CKey src) Ri) as Fr. rewrite Ef in *. cbn [fst] in Fr.
    set (w1 := with_field w i (set_vals (fobjs w i) f')). assert (G1 : ginv w1) by (now apply set_inv). destruct (IH w1 G1 Dr) as (A & B & C'); [intros x X; apply Sub; now right|].
    assert (Nm1 : forall j, f_name (fobjs w1 j) = f_name (fobjs w j)) by (intros j; destruct (proj2 (proj2 (shape_set w i f')) j) as (Q & _); exact Q).
    split; [exact A|]. split.
    + intros j Hj Ij v' Iv' Ev'. destruct (Nat.eq_dec j i) as [->|Nj].
      * rewrite C' by (rewrite Nm1, Nm; tauto). unfold w1. cbn. rewrite upd_same. cbn. rewrite Vf, Ev. f_equal. apply (src_unique _ _ v v' Ri Iv Iv'). congruence.
      * assert (Ej : fobjs w1 j = fobjs w j) by (unfold w1; cbn; now apply upd_other). destruct Ij as [Ij|Ij]; [destruct Hj as (_ & Hj); congruence|].
        rewrite (B j) with (v := v'); rewrite ?Ej; trivial. unfold in_node. rewrite Ej. exact Hj.
    + intros j Hj. assert (Nj : j <> i). { intros ->. apply Hj. split; [split; [rewrite Nm; apply Sub; now left|now rewrite Nm]|]. split; [now left|]. apply in_map_iff. eauto. }
      assert (Ej : fobjs w1 j = fobjs w j) by (unfold w1; cbn; now apply upd_other). rewrite C'; trivial. unfold in_node. rewrite Ej. intros (X & Y & Z). apply Hj. split; [exact X|]. split; [now right|exact Z].
  - rewrite LN by (intros v Iv Ev; apply N, in_map_iff; eauto). destruct (IH w G Dr) as (A & B & C'); [intros x X; apply Sub; now right|]. split; [exact A|]. split.
    + intros j Hj [Ij|Ij] v Iv Ev; [|now apply B]. exfalso. assert (j = i) by (destruct Hj as (_ & Hj); congruence). subst j. apply N, in_map_iff. eauto.
    + intros j Hj. apply C'. intros (X & Y & Z). apply Hj. split; [exact X|]. split; [now right|exact Z].
Qed.
Theorem C129_setToSource : forall w n src s, reach w -> names_source src s ->
  snd (setToSource w n src Skip) = Ok tt /\ nodes (fst (setToSource w n src Skip)) = nodes w /\
  (forall i v, in_node w n i -> In v (vals (f_vals (fobjs w i))) -> v_src v = s -> vals (f_vals (fobjs (fst (setToSource w n src Skip)) i)) = v :: except s (vals (f_vals (fobjs w i)))) /\
  (forall i, ~ (in_node w n i /\ In s (map v_src (vals (f_vals (fobjs w i))))) -> fobjs (fst (setToSource w n src Skip)) i = fobjs w i).
Proof.
  intros w n src s R Hs. pose proof (reach_inv w R) as G. unfold setToSource. destruct (toSource_skip src s n (n_names (nodes w n)) Hs w G (proj1 (proj1 G n)) (fun k H => H)) as (A & B & C).
  split; [exact A|]. split; [apply (toSource_inv n src Skip (n_names (nodes w n)) w G)|]. split.
  - intros i v Hi Iv Ev. apply B; trivial. apply Hi.
  - intros i N. apply C. tauto.
Qed.
(** with missing='raise' it succeeds exactly when every Field of the node has a value of the source *)
Lemma toSource_raise src s n l : names_source src s -> forall w, ginv w -> NoDup l -> (forall k, In k l -> In k (n_names (nodes w n))) ->
  ((forall i, in_node w n i -> In (f_name (fobjs w i)) l -> In s (map v_src (vals (f_vals (fobjs w i))))) -> toSource w n src RaiseIt l = toSource w n src Skip l) /\
  ((exists i, in_node w n i /\ In (f_name (fobjs w i)) l /\ ~ In s (map v_src (vals (f_vals (fobjs w i))))) -> snd (toSource w n src RaiseIt l) = Raise ValueError).
Proof.
  intros Hs. induction l as [|k r IH]; intros w G D Sub; cbn [toSource]; [split; [reflexivity|intros (i & _ & [] & _)]|].
  inversion D as [|? ? Nk Dr]; subst. destruct (proj2 (proj1 G n) k (Sub k (or_introl eq_refl))) as (i & P & _ & Nm & _). rewrite P.
  assert (Hi : in_node w n i) by (split; rewrite Nm; [apply Sub; now left|trivial]).
  pose proof (proj2 G i) as Ri. destruct (C14_lookup V _ _ _ src s Ri Hs) as (LY & LN). unfold contains.
  destruct (in_dec Nat.eq_dec s (map v_src (vals (f_vals (fobjs w i))))) as [Y|N].
  - pose proof Y as Y'. apply in_map_iff in Y. destruct Y as (v & Ev & Iv). destruct (LY v Iv Ev) as (p & Gp & Np). rewrite Gp.
    destruct (C14_set_current V _ _ _ Ri) as (C & _). destruct (C src p v Gp Np) as (f' & Ef & Vf). pose proof (fcurr_reach _ _ (CKey src) Ri) as Fr. rewrite Ef in *. cbn [fst] in Fr.
    set (w1 := with_field w i (set_vals (fobjs w i) f')). assert (G1 : ginv w1) by (now apply set_inv). destruct (IH w1 G1 Dr) as (A & B); [intros x X; apply Sub; now right|].
    assert (Nm1 : forall j, f_name (fobjs w1 j) = f_name (fobjs w j)) by (intros j; destruct (proj2 (proj2 (shape_set w i f')) j) as (Q & _); exact Q).
    split.
    + intros H. apply A. intros j Hj Ij. destruct (Nat.eq_dec j i) as [->|Nj]; [exfalso; apply Nk; rewrite <- Nm, <- (Nm1 i); exact Ij|].
      assert (Ej : fobjs w1 j = fobjs w j) by (unfold w1; cbn; now apply upd_other). rewrite Ej in *. apply H; [unfold in_node in *; rewrite Ej in Hj; exact Hj|now right].
    + intros (j & Hj & Ij & Nj). apply B. destruct (Nat.eq_dec j i) as [->|Ne]; [contradiction|]. assert (Ej : fobjs w1 j = fobjs w j) by (unfold w1; cbn; now apply upd_other).
      exists j. unfold in_node. rewrite Ej. split; [exact Hj|]. split; [|exact Nj]. destruct Ij as [Ij|Ij]; [destruct Hj as (_ & Hj); congruence|exact Ij].
  - rewrite LN by (intros v Iv Ev; apply N, in_map_iff; eauto). split; [|reflexivity]. intros H. exfalso. apply N, H; [exact Hi|left; now rewrite Nm].
Qed.
Theorem C129_setToSource_raise : forall w n src s, reach w -> names_source src s ->
  ((forall i, in_node w n i -> In s (map v_src (vals (f_vals (fobjs w i))))) -> setToSource w n src RaiseIt = setToSource w n src Skip) /\
  (forall i, in_node w n i -> ~ In s (map v_src (vals (f_vals (fobjs w i)))) -> snd (setToSource w n src RaiseIt) = Raise ValueError) /\
  setToSource w n src Invalid = (w, Raise ValueError).
Proof.
  intros w n src s R Hs. pose proof (reach_inv w R) as G. unfold setToSource. destruct (toSource_raise src s n (n_names (nodes w n)) Hs w G (proj1 (proj1 G n)) (fun k H => H)) as (A & B). split.
  - intros H. apply A. intros i Hi _. now apply H.
  - split; [|reflexivity]. intros i Hi N. apply B. exists i. split; [exact Hi|]. split; [apply Hi|exact N].
Qed.

(** ** Refuted *)
(** a Field that was deleted from a node cannot be added again, to any node *)
Theorem C129_deleted_refuted : forall w n m i, reach w -> in_node w n i ->
  snd (addField (fst (delField w n (f_name (fobjs w i)))) m (FObj i)) = Raise ValueError.
Proof.
  intros w n m i R (I & P). destruct (reach_inv w R) as (A & _). destruct (proj2 (A n) _ I) as (i' & P' & _ & _ & T). assert (i' = i) by congruence. subst i'.
  unfold delField. rewrite (proj2 (has_in _ _) I). cbn [fst]. apply C129_add_failed. right. cbn. congruence.
Qed.
(** node['x_src'] for a Field x that is not there is an AttributeError; node['x'] is an IndexError *)
Theorem C129_missing_refuted : FnModel.getitem (newWorld (V := V)) 0 (NStr (L "x")) = Raise IndexError /\ FnModel.getitem (newWorld (V := V)) 0 (NStr (L "x_src")) = Raise AttributeError.
Proof. split; reflexivity. Qed.
(** a Field of node 0 given to node 1 is refused, but then node1['x_src'] answers for it although node 1 has no Field x *)
Theorem C129_foreign_refuted : exists w : world, reach w /\ snd (addField w 1 (FObj 0)) = Raise ValueError /\
  FnModel.getitem w 1 (NStr (L "x_src")) = Raise AttributeError /\ n_names (nodes (fst (addField w 1 (FObj 0))) 1) = [] /\ FnModel.getitem (fst (addField w 1 (FObj 0))) 1 (NStr (L "x_src")) = Ok Nothing.
Proof.
  exists (step newWorld (OAdd 0 (FName (L "x")))). split; [|repeat split]. apply reach_step; [apply reach_new|exact I].
Qed.
(** setToSource(missing='raise') that fails has already changed the Fields before the failing one *)
Theorem C129_raise_refuted : forall x y : V, exists w : world, reach w /\ snd (setToSource w 0 (KName 3 None) RaiseIt) = Raise ValueError /\
  FnModel.getitem w 0 (NStr (L "a")) = Ok (Value x) /\ FnModel.getitem (fst (setToSource w 0 (KName 3 None) RaiseIt)) 0 (NStr (L "a")) = Ok (Value y).
Proof.
  intros x y. set (ops := [OAdd 0 (FName (L "a")); OAdd 0 (FName (L "b")); OSet 0 (NStr (L "a")) (CInp (IPair 3 y)); OSet 0 (NStr (L "a")) (CInp (IPair 4 x))]).
  exists (fold_left step ops newWorld). split; [|repeat split]. unfold ops. cbn [fold_left]. repeat (apply reach_step; [|exact I]). apply reach_new.
Qed.
End Proofs.

(** the hypotheses are met: a node with two Fields, the first with two values *)
Definition exw : @world nat := fold_left (step (fun _ => 0)) [OAdd 0 (FName (L "a")); OAdd 0 (FName (L "b")); OSet 0 (NStr (L "a")) (CInp (IPair 3 30)); OSet 0 (NStr (L "a")) (CInp (IPair 4 40))] newWorld.
Example ex_node : reach (fun _ => 0) exw /\ in_node exw 0 0 /\ in_node exw 0 1 /\ values exw 0 = [Some 40; None] /\ FnModel.getitem exw 0 (NStr (L "a_src")) = Ok (Src 4) /\
  values (fst (setToSource exw 0 (KName 3 None) Skip)) 0 = [Some 30; None].
Proof.
  split; [unfold exw; cbn [fold_left]; repeat (apply reach_step; [|exact I]); apply reach_new|]. repeat split; cbn; auto.
Qed.
