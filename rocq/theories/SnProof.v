(** * SnProof: C131, nodes with the Fields of their class *)
From Coq Require Import List ZArith Lia Bool Ascii String.
From Verif Require Import PyBase PubModel IoColumns FieldModel FieldProofs FieldProps FnModel FnProof AnModel AnProof SnModel.
Import ListNotations.

Section Proofs.
Context {V : Type}.
Variable int_src : Z -> nat.
Variable kind : nat -> list (@cfield V).
Hypothesis kind_names : forall n, NoDup (map c_name (kind n)).
Notation world := (@world V).
Notation state := (@state V).
Notation ginv := (FnProof.ginv int_src).
Notation construct := (construct int_src kind).
Notation revert := (revert int_src kind).

(** ** Specification: histories *)
Inductive sop :=
| SNew (n : nat)                                (* the constructor *)
| SRevert (n : nat)
| SAdd (n : nat) (a : farg)
| SDel (n : nat) (k : str)
| SSet (n : nat) (k : nkey) (a : @carg V)
| STo (n : nat) (src : @key V) (m : missing)
| SMake (name : str) (ty : @ftype V)
| SChange (i : nat) (o : @fop V).
Definition sstep (st : state) (o : sop) : state :=
  match o with
  | SNew n => construct st n
  | SRevert n => revert st n
  | SAdd n a => fst (sAddField st n a)
  | SDel n k => fst (sDelField st n k)
  | SSet n k a => fst (inherited st (FnModel.setitem (sw st) n k a))
  | STo n src m => fst (inherited st (setToSource (sw st) n src m))
  | SMake s ty => State (makeField (sw st) s ty) (made st) (altered st)
  | SChange i o => State (changeField int_src (sw st) i o) (made st) (altered st)
  end.
(** nodes are used after they are made, and made once; Fields that are used exist *)
Definition sop_ok (st : state) (o : sop) : Prop :=
  match o with
  | SNew n => made st n = false
  | SRevert n | SDel n _ | SSet n _ _ | STo n _ _ => made st n = true
  | SAdd n a => made st n = true /\ match a with FObj i => i < nextf (sw st) | _ => True end
  | SMake _ _ => True
  | SChange i o => i < nextf (sw st) /\ fop_ok o
  end.
Inductive sreach : state -> Prop :=
| sreach_new : sreach newState
| sreach_step st o : sreach st -> sop_ok st o -> sreach (sstep st o).
(** the values a new Field has *)
Definition defaults (c : @cfield V) : list (@fval V) := match c_default c with None => [] | Some d => [{| v_src := 0; v_val := d; v_errs := []; v_der := None |}] end.
(** node n has exactly the Fields of its class, all new *)
Definition standard (w : world) (n : nat) : Prop :=
  n_names (nodes w n) = map c_name (kind n) /\
  forall c, In c (kind n) -> match c_default c with Some d => t_ok (c_type c) d = true | None => True end -> vals_of w n (c_name c) = defaults c.

(** ** Lemmas *)
Lemma vals0_reach (c : @cfield V) : FieldProps.reachable (c_type c) int_src (vals0 int_src c).
Proof.
  assert (E : FieldProps.reachable (c_type c) int_src (@empty_field V)) by (exists []; split; [constructor|reflexivity]).
  unfold vals0. destruct (c_default c) as [d|]; trivial. exact (freach_step int_src (c_type c) empty_field (FSet (fun _ => 0) KNone (RRaw d)) I E).
Qed.
Lemma vals0_vals (c : @cfield V) : match c_default c with Some d => t_ok (c_type c) d = true | None => True end -> vals (vals0 int_src c) = defaults c.
Proof.
  unfold vals0, defaults. destruct (c_default c) as [d|]; [|reflexivity]. intros T. unfold FieldModel.setitem, contains, checkConvInVal, check_conv_type. cbn. rewrite T. reflexivity.
Qed.
Lemma install_inv (w : world) n c : ginv w -> ginv (install int_src w n c).
Proof.
  intros (A & R). split.
  - intros m. cbn. unfold upd at 1. destruct (Nat.eqb_spec m n) as [->|N]; cbn [n_names n_attr].
    + rewrite upd_same. cbn [n_names n_attr]. destruct (A n) as (D & K). split; trivial. intros s I. unfold upds. destruct (str_eqb s (c_name c)) eqn:E.
      * apply str_eqb_spec in E. exists (nextf w). rewrite upd_same. cbn. repeat split; auto.
      * destruct (K s I) as (i & P & Q & S & T). exists i. rewrite upd_other by lia. repeat split; trivial. lia.
    + rewrite upd_other by trivial. destruct (A m) as (D & K). split; trivial. intros s I. destruct (K s I) as (i & P & Q & S & T). exists i. rewrite upd_other by lia. repeat split; trivial. lia.
  - intros i. cbn. unfold upd. destruct (Nat.eqb i (nextf w)); [apply vals0_reach|apply R].
Qed.
Lemma installs_obs n l : NoDup (map c_name l) -> forall w : world, ginv w ->
  let w' := installs int_src w n l in
  ginv w' /\ n_names (nodes w' n) = n_names (nodes w n) /\ (forall m, m <> n -> nodes w' m = nodes w m) /\ nextf w <= nextf w' /\ (forall i, i < nextf w -> fobjs w' i = fobjs w i) /\
  (forall c, In c l -> exists i, n_attr (nodes w' n) (c_name c) = Some i /\ i < nextf w' /\ fobjs w' i = Fobj (c_name c) (c_type c) (Some n) (vals0 int_src c)) /\
  (forall k, ~ In k (map c_name l) -> n_attr (nodes w' n) k = n_attr (nodes w n) k).
Proof.
  induction l as [|c r IH]; intros D w G; cbn [installs fold_left].
  - cbn. split; [exact G|]. repeat split; trivial. intros c [].
  - cbn in D. inversion D as [|? ? X Y]; subst. destruct (IH Y (install int_src w n c) (install_inv w n c G)) as (G' & Nm & O & Le & Fo & At & Rest). cbn [nextf install] in *. fold (installs int_src (install int_src w n c) n r) in *.
    cbv zeta. split; [exact G'|]. split; [rewrite Nm; cbn; now rewrite upd_same|]. split; [intros m M; rewrite O by trivial; cbn; now rewrite upd_other|]. split; [lia|]. split; [intros i I; rewrite Fo by lia; cbn; apply upd_other; lia|]. split.
    + intros c' [<-|I]; [|now apply At]. exists (nextf w). rewrite Rest by trivial. cbn [nodes install]. rewrite upd_same. cbn [n_attr]. rewrite upds_same. split; [reflexivity|]. split; [lia|]. rewrite Fo by lia. cbn. now rewrite upd_same.
    + intros k N. rewrite Rest by (cbn in N; tauto). cbn. rewrite upd_same. cbn. apply upds_other. intros ->. apply N. now left.
Qed.
(** any node given exactly the Fields of its class *)
Lemma standard_obs (w : world) n (f : str -> option nat) : ginv w -> let w1 := installs int_src w n (kind n) in
  (forall k, In k (map c_name (kind n)) -> f k = n_attr (nodes w1 n) k) ->
  let w' := with_node w1 n (Node (map c_name (kind n)) f) in
  ginv w' /\ standard w' n /\ (forall m, m <> n -> as_before w w' m) /\ (forall m k, In k (n_names (nodes w' m)) -> exists i, n_attr (nodes w' m) k = Some i) /\
  (forall c, In c (kind n) -> exists i, n_attr (nodes w' n) (c_name c) = Some i /\ f_type (fobjs w' i) = c_type c).
Proof.
  intros G w1 Hf w'. destruct (installs_obs n (kind n) (kind_names n) w G) as (G1 & Nm & O & Le & Fo & At & Rest). fold w1 in G1, Nm, O, Le, Fo, At, Rest.
  assert (G' : ginv w').
  { destruct G1 as (A & R). split; [|exact R]. intros m. unfold w'. cbn. unfold upd. destruct (Nat.eqb_spec m n) as [->|M]; [|apply A]. cbn. split; [apply kind_names|]. intros s I. rewrite Hf by trivial. apply in_map_iff in I. destruct I as (c & <- & I). destruct (At c I) as (i & P & Q & S). exists i. rewrite S. auto. }
  split; [exact G'|]. split; [|split; [|split]].
  - split; [unfold w'; cbn; now rewrite upd_same|]. intros c I T. unfold vals_of, w'. cbn [nodes with_node fobjs]. rewrite upd_same. cbn [n_names n_attr]. rewrite (proj2 (has_in _ _)) by (now apply in_map). rewrite Hf by (now apply in_map).
    destruct (At c I) as (i & P & Q & S). rewrite P, S. now apply vals0_vals.
  - intros m M. unfold as_before, vals_of, w'. cbn [nodes with_node fobjs]. rewrite upd_other by trivial. rewrite O by trivial. split; [reflexivity|]. intros k. destruct (has (n_names (nodes w m)) k) eqn:H; trivial. apply has_in in H. destruct (proj2 (proj1 G m) k H) as (i & P & Q & _). rewrite P. now rewrite Fo.
  - intros m k I. destruct (proj2 (proj1 G' m) k I) as (i & P & _). eauto.
  - intros c I. destruct (At c I) as (i & P & Q & S). exists i. unfold w'. cbn [nodes with_node fobjs]. rewrite upd_same. cbn [n_attr]. rewrite Hf by (now apply in_map). split; [exact P|]. now rewrite S.
Qed.
(** unaltered nodes have the names and types of their class; unmade nodes are empty *)
Definition typed (w : world) (n : nat) : Prop := n_names (nodes w n) = map c_name (kind n) /\ forall c i, In c (kind n) -> n_attr (nodes w n) (c_name c) = Some i -> f_type (fobjs w i) = c_type c.
Definition sinv (st : state) : Prop := ginv (sw st) /\ (forall n, made st n = true -> altered st n = false -> typed (sw st) n) /\ (forall n, made st n = false -> n_names (nodes (sw st) n) = []).
Lemma shape_sinv st w : sinv st -> ginv w -> shape (sw st) w -> sinv (State w (made st) (altered st)).
Proof.
  intros (_ & T & U) G (N & _ & F). split; [exact G|]. cbn. rewrite N. split; [|exact U]. intros n M A. destruct (T n M A) as (T1 & T2). split; [now rewrite N|]. intros c i I P. rewrite N in P. destruct (F i) as (_ & -> & _). eauto.
Qed.
Lemma other_sinv st w n : sinv st -> ginv w -> made st n = true -> (forall m, m <> n -> nodes w m = nodes (sw st) m) -> (forall i, i < nextf (sw st) -> f_type (fobjs w i) = f_type (fobjs (sw st) i)) -> sinv (State w (made st) (upd (altered st) n true)).
Proof.
  intros (G0 & T & U) G M O F. split; [exact G|]. cbn. split.
  - intros m Mm A. destruct (Nat.eq_dec m n) as [->|Ne]; [rewrite upd_same in A; discriminate|]. rewrite upd_other in A by trivial. destruct (T m Mm A) as (T1 & T2). unfold typed. rewrite O by trivial. split; trivial. intros c i I P. 
    destruct (proj2 (proj1 G0 m) (c_name c)) as (i' & P' & Q & _); [rewrite T1; now apply in_map|]. assert (i' = i) as -> by congruence. rewrite F by trivial. eauto.
  - intros m Mm. rewrite O; [now apply U|]. congruence.
Qed.
Lemma addObj_types w n i : (forall m, m <> n -> nodes (fst (addObj (V := V) w n i)) m = nodes w m) /\ (forall j, f_type (fobjs (fst (addObj w n i)) j) = f_type (fobjs w j)).
Proof.
  unfold addObj. destruct (has _ _); [split; reflexivity|]. destruct (f_node (fobjs w i)); cbn; split; intros; try (now rewrite upd_other); trivial. unfold upd. destruct (Nat.eqb_spec j i); subst; reflexivity.
Qed.
Lemma sstep_inv st o : sinv st -> sop_ok st o -> sinv (sstep st o).
Proof.
  intros S O. pose proof S as (G & T & U). destruct o as [n|n|n a|n k|n k a|n src m|s ty|i o]; cbn [sstep sop_ok] in *.
  - unfold construct. pose proof (standard_obs (sw st) n (n_attr (nodes (installs int_src (sw st) n (kind n)) n)) G (fun k _ => eq_refl)) as (G' & (S1 & _) & Ob & _ & Ty).
    destruct (installs_obs n (kind n) (kind_names n) (sw st) G) as (_ & Nm & On & _ & Fo & _). rewrite Nm, (U n O). cbn [app]. split; [exact G'|]. cbn [made altered sw]. split.
    + intros m Mm A. destruct (Nat.eq_dec m n) as [->|Ne].
      * split; [exact S1|]. intros c i I P. destruct (Ty c I) as (i' & P' & Q). congruence.
      * rewrite upd_other in Mm, A by trivial. destruct (T m Mm A) as (T1 & T2). unfold typed. cbn [nodes with_node fobjs]. rewrite upd_other by trivial. rewrite On by trivial. split; trivial. intros c i I P.
        destruct (proj2 (proj1 G m) (c_name c)) as (i' & P' & Q & _); [rewrite T1; now apply in_map|]. assert (i' = i) as -> by congruence. rewrite Fo by trivial. eauto.
    + intros m Mm. destruct (Nat.eq_dec m n) as [->|Ne]; [rewrite upd_same in Mm; discriminate|]. rewrite upd_other in Mm by trivial. cbn [nodes with_node]. rewrite upd_other by trivial. rewrite On by trivial. now apply U.
  - unfold revert. set (f := fun k => _). pose proof (standard_obs (sw st) n f G) as X. cbv zeta in X. destruct X as (G' & (S1 & _) & Ob & _ & Ty); [intros k I; unfold f; now rewrite (proj2 (has_in _ _) I)|].
    destruct (installs_obs n (kind n) (kind_names n) (sw st) G) as (_ & Nm & On & _ & Fo & _). split; [exact G'|]. cbn [made altered sw]. split.
    + intros m Mm A. destruct (Nat.eq_dec m n) as [->|Ne].
      * split; [exact S1|]. intros c i I P. destruct (Ty c I) as (i' & P' & Q). congruence.
      * rewrite upd_other in A by trivial. destruct (T m Mm A) as (T1 & T2). unfold typed. cbn [nodes with_node fobjs]. rewrite upd_other by trivial. rewrite On by trivial. split; trivial. intros c i I P.
        destruct (proj2 (proj1 G m) (c_name c)) as (i' & P' & Q & _); [rewrite T1; now apply in_map|]. assert (i' = i) as -> by congruence. rewrite Fo by trivial. eauto.
    + intros m Mm. destruct (Nat.eq_dec m n) as [->|Ne]; [congruence|]. cbn [nodes with_node]. rewrite upd_other by trivial. rewrite On by trivial. now apply U.
  - unfold sAddField. destruct (addField (sw st) n a) as [w r] eqn:E. cbn [fst]. destruct O as (O & Oa). assert (E' : w = fst (addField (sw st) n a)) by now rewrite E. apply other_sinv; trivial.
    + rewrite E'. destruct a as [s|i|]; cbn [addField]; [apply addObj_inv; [now apply make_inv|cbn; lia]|now apply addObj_inv|exact G].
    + rewrite E'. intros m M. destruct a as [s|i|]; cbn [addField]; [rewrite (proj1 (addObj_types _ n _)) by trivial; reflexivity|now apply addObj_types|reflexivity].
    + rewrite E'. intros j J. destruct a as [s|i|]; cbn [addField]; [rewrite (proj2 (addObj_types _ n _)); cbn; now rewrite upd_other by lia|now apply addObj_types|reflexivity].
  - unfold sDelField. destruct (delField (sw st) n k) as [w r] eqn:E. cbn [fst]. assert (E' : w = fst (delField (sw st) n k)) by now rewrite E. apply other_sinv; trivial.
    + rewrite E'. unfold delField. destruct (has _ _) eqn:H; [|exact G]. cbn [fst]. destruct G as (A & R). split; [|exact R]. intros m. cbn. unfold upd. destruct (Nat.eqb_spec m n) as [->|N]; [|apply A]. cbn.
      destruct (A n) as (D & K). split; [now apply remove1_nodup|]. intros s I. apply remove1_in in I; trivial. destruct I as (I & X). rewrite upds_other by trivial. now apply K.
    + rewrite E'. intros m M. unfold delField. destruct (has _ _); cbn; [now rewrite upd_other|reflexivity].
    + rewrite E'. intros j J. unfold delField. destruct (has _ _); reflexivity.
  - unfold inherited. cbn [fst]. unfold FnModel.setitem. destruct (match k with NInt z => _ | NStr s => _ end) as [s|]; [|apply shape_sinv; trivial; apply shape_refl]. destruct (n_attr (nodes (sw st) n) s) as [i|]; [|apply shape_sinv; trivial; apply shape_refl].
    pose proof (fcurr_reach int_src _ _ a (proj2 G i)) as F. destruct (setCurr (f_type (fobjs (sw st) i)) (f_vals (fobjs (sw st) i)) a) as [f r]. cbn [fst] in *. apply shape_sinv; trivial; [now apply set_inv|apply shape_set].
  - unfold inherited. cbn [fst]. unfold setToSource. destruct m; [| |apply shape_sinv; trivial; apply shape_refl]; destruct (toSource_inv int_src n src Skip (n_names (nodes (sw st) n)) (sw st) G); destruct (toSource_inv int_src n src RaiseIt (n_names (nodes (sw st) n)) (sw st) G); now apply shape_sinv.
  - split; [now apply make_inv|]. cbn [made altered sw nodes makeField]. split; [|exact U]. intros n M A. destruct (T n M A) as (T1 & T2). split; [exact T1|]. intros c i I P. cbn [nodes fobjs makeField] in *. destruct (proj2 (proj1 G n) (c_name c)) as (i' & P' & Q & _); [rewrite T1; now apply in_map|]. assert (i' = i) as -> by congruence. rewrite upd_other by lia. eauto.
  - apply shape_sinv; trivial; [apply set_inv; trivial; apply freach_step; [apply O|apply G]|apply shape_set].
Qed.
Lemma sreach_inv st : sreach st -> sinv st.
Proof.
  induction 1 as [|st o R IH O]; [|now apply sstep_inv]. split; [apply reach_inv, reach_new|]. split; [discriminate|reflexivity].
Qed.

(** ** Theorems *)
(** C131: a new node has exactly the Fields of its class, in order, each with its default value (source None) or empty; no other node changes *)
Theorem C131_new : forall st n, sreach st -> made st n = false ->
  standard (sw (construct st n)) n /\ altered (construct st n) n = false /\ forall m, m <> n -> as_before (sw st) (sw (construct st n)) m.
Proof.
  intros st n R M. destruct (sreach_inv st R) as (G & _ & U). unfold construct. pose proof (standard_obs (sw st) n (n_attr (nodes (installs int_src (sw st) n (kind n)) n)) G (fun k _ => eq_refl)) as (_ & S & Ob & _).
  destruct (installs_obs n (kind n) (kind_names n) (sw st) G) as (_ & Nm & _). rewrite Nm, (U n M). cbn [app sw altered]. split; [exact S|]. split; [apply upd_same|exact Ob].
Qed.
(** C131: after any history, a node that says it is not altered has the Fields of its class, in order and with its types, and they belong to the node *)
Theorem C131_unaltered : forall st n, sreach st -> made st n = true -> altered st n = false ->
  n_names (nodes (sw st) n) = map c_name (kind n) /\ forall c, In c (kind n) -> exists i, in_node (sw st) n i /\ f_name (fobjs (sw st) i) = c_name c /\ f_type (fobjs (sw st) i) = c_type c /\ f_node (fobjs (sw st) i) = Some n.
Proof.
  intros st n R M A. destruct (sreach_inv st R) as (G & T & _). destruct (T n M A) as (T1 & T2). split; [exact T1|]. intros c I. assert (I' : In (c_name c) (n_names (nodes (sw st) n))) by (rewrite T1; now apply in_map).
  destruct (proj2 (proj1 G n) _ I') as (i & P & _ & Nm & Nd). exists i. unfold in_node. rewrite Nm. repeat split; trivial. eauto.
Qed.
(** C131: revert gives a node the Fields of its class with only their default values, whatever was added, deleted or written; no other node changes *)
Theorem C131_revert : forall st n, sreach st -> made st n = true ->
  standard (sw (revert st n)) n /\ altered (revert st n) n = false /\ (forall m, m <> n -> as_before (sw st) (sw (revert st n)) m) /\
  (forall k, ~ In k (map c_name (kind n)) -> n_attr (nodes (sw (revert st n)) n) k = None).
Proof.
  intros st n R M. destruct (sreach_inv st R) as (G & _ & U). unfold revert. set (f := fun k => _). pose proof (standard_obs (sw st) n f G) as X. cbv zeta in X. destruct X as (_ & S & Ob & _); [intros k I; unfold f; now rewrite (proj2 (has_in _ _) I)|].
  cbn [sw altered]. split; [exact S|]. split; [apply upd_same|]. split; [exact Ob|]. intros k N. cbn [nodes with_node]. rewrite upd_same. cbn [n_attr]. unfold f. now rewrite (proj2 (has_out _ _) N).
Qed.
(** C131: alteredstruct is true exactly when addField or delField was called (successfully or not) since the node was made or last reverted *)
Definition changes (n : nat) (o : sop) : option bool := match o with SNew m | SRevert m => if Nat.eqb m n then Some false else None | SAdd m _ | SDel m _ => if Nat.eqb m n then Some true else None | _ => None end.
Fixpoint last_change (n : nat) (ops : list sop) : option bool := match ops with [] => None | o :: r => match last_change n r with Some b => Some b | None => changes n o end end.
Theorem C131_altered : forall ops n, altered (fold_left sstep ops newState) n = match last_change n ops with Some b => b | None => false end.
Proof.
  intros ops n. assert (X : forall st, altered (fold_left sstep ops st) n = match last_change n ops with Some b => b | None => altered st n end); [|exact (X newState)].
  induction ops as [|o r IH]; intros st; cbn [fold_left last_change]; [reflexivity|]. rewrite IH. destruct (last_change n r); trivial.
  destruct o as [m|m|m a|m k|m k a|m src mi|s ty|i o]; cbn [sstep changes]; unfold construct, revert, sAddField, sDelField, inherited; cbn [altered fst]; trivial; try (destruct (addField _ _ _)); try (destruct (delField _ _ _)); cbn [altered fst]; unfold upd; rewrite (Nat.eqb_sym n m); destruct (Nat.eqb m n); reflexivity.
Qed.
(** C131: adding and deleting are those of C129 *)
Lemma add_del_inherited : forall (st : state) n a k, sw (fst (sAddField st n a)) = fst (addField (sw st) n a) /\ snd (sAddField st n a) = snd (addField (sw st) n a) /\ sw (fst (sDelField st n k)) = fst (delField (sw st) n k) /\ snd (sDelField st n k) = snd (delField (sw st) n k).
Proof. intros st n a k. unfold sAddField, sDelField. destruct (addField (sw st) n a), (delField (sw st) n k). repeat split. Qed.
End Proofs.

(** ** Refuted *)
Definition xkind (n : nat) : list (@cfield nat) := [CField (L "x") any_type None; CField (L "y") any_type (Some 5)].
Lemma xkind_names n : NoDup (map c_name (xkind n)). Proof. cbn. apply NoDup_cons; [intros [H|[]]; discriminate|]. apply NoDup_cons; [intros []|apply NoDup_nil]. Qed.
Definition xst : @state nat := fold_left (sstep (fun _ => 0) xkind) [SNew 0; SSet 0 (NStr (L "x")) (CInp (IPair 3 30))] newState.
Lemma xst_reach : sreach (fun _ => 0) xkind xst.
Proof. unfold xst. cbn [fold_left]. apply sreach_step; [apply sreach_step; [apply sreach_new|reflexivity]|reflexivity]. Qed.
(** revert loses the values of an unaltered node *)
Theorem C131_revert_keeps_refuted : sreach (fun _ => 0) xkind xst /\ made xst 0 = true /\ altered xst 0 = false /\ values (sw xst) 0 = [Some 30; Some 5] /\ values (sw (revert (fun _ => 0) xkind xst 0)) 0 = [None; Some 5].
Proof. split; [apply xst_reach|]. vm_compute. repeat split. Qed.
(** a refused addField alters nothing but marks the node as altered *)
Theorem C131_refused_refuted : altered xst 0 = false /\ snd (sAddField xst 0 (FName (L "x"))) = Raise ValueError /\ altered (fst (sAddField xst 0 (FName (L "x")))) 0 = true /\ n_names (nodes (sw (fst (sAddField xst 0 (FName (L "x"))))) 0) = n_names (nodes (sw xst) 0).
Proof. vm_compute. repeat split. Qed.
Example ex_structured : sreach (fun _ => 0) xkind xst /\ made xst 0 = true /\ n_names (nodes (sw xst) 0) = [L "x"; L "y"] /\ made xst 1 = false.
Proof. split; [apply xst_reach|]. vm_compute. repeat split. Qed.
