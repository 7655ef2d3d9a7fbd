(** * ExProof: C133, searching and extracting over trees *)
From Coq Require Import List ZArith Lia Bool Ascii String.
From Verif Require Import PyBase PubModel IoColumns FieldModel FieldProofs FieldProps FnModel FnProof AnModel AnProof ExModel.
From Verif Require CatalogModel CatalogSpec CatalogProps.
Import ListNotations.

(** ** Specification *)
(** statements about the nodes [l] that a traversal visits, in order (C12) *)
Definition over (h : heap) (n : nat) (P : CatalogModel.traversal -> bool -> list nat -> Prop) : Prop :=
  exists tr, CatalogSpec.root tr = n /\ CatalogSpec.represents h tr /\ forall t incl l, CatalogSpec.order_of t incl tr = Some l -> P t incl l.
Definition accepted (g : option (nat -> bool)) (l : list nat) : list nat := match g with None => l | Some g => filter g l end.
Definition table_of {A} (names : list str) (f : str -> list A) : table A := match names with [k] => One (f k) | _ => Many (map f names) end.
Definition plain (k : str) : Prop := forall b, k <> b ++ L "_src" /\ k <> b ++ L "_err".
Section Spec.
Context {V : Type}.
Variable h : heap.
Variable other : nat -> str -> option V.
Variable w : @world V.
Definition is_field (m : nat) : bool := match kindOf h m with Some CatalogModel.KField => true | _ => false end.
(** what a node has under a name: nothing (None), an empty Field (Some None), or a value *)
Definition cell (m : nat) (k : str) : option (option V) :=
  match kindOf h m with
  | Some CatalogModel.KField => if has (n_names (nodes w m)) k then Some (option_map v_val (hd_error (vals_of w m k))) else None
  | Some CatalogModel.KCatalog => option_map Some (other m k)
  | _ => None
  end.
Definition present (m : nat) (k : str) : bool := match cell m k with Some _ => true | None => false end.
Definition value (conv : option (@answer V) -> @res (option (@answer V))) (d : option (@answer V)) (m : nat) (k : str) : option (@answer V) :=
  match cell m k with Some o => match conv (option_map Value o) with Ok y => y | _ => d end | None => d end.
Definition source (m : nat) (k : str) : option nat := if is_field m then option_map v_src (hd_error (vals_of w m k)) else None.
(** attributes that are Fields are in the list of names (no Field of another node was offered, C129_foreign_refuted) *)
Definition clean : Prop := forall m k i, n_attr (nodes w m) k = Some i -> In k (n_names (nodes w m)).
End Spec.
(** converters give a value or one of the errors that count as missing *)
Definition tame {V} (conv : option (@answer V) -> @res (option (@answer V))) : Prop := forall o, (exists y, conv o = Ok y) \/ (exists e, conv o = Raise e /\ In e [KeyError; IndexError; TypeError; AttributeError]).
(** the value of source s in front *)
Definition moved {V} (s : nat) (l : list (@fval V)) : list (@fval V) := match List.find (fun v => Nat.eqb (v_src v) s) l with Some v => v :: filter (fun v => negb (Nat.eqb (v_src v) s)) l | None => l end.

(** ** Lemmas *)
Lemma visit_at (h : heap) n : CatalogSpec.reachable h -> (exists x, base.lookup n h = Some x) ->
  over h n (fun t incl l => forall S X (f : S -> nat -> S * option X) flt s, CatalogModel.visit h (CatalogModel.enough h) f t flt incl n s = Ok (CatalogSpec.visited f flt s l)).
Proof.
  intros R E. destruct (CatalogProps.C12_visit h n R E) as (tr & A & B & _ & _ & _ & H). exists tr. split; [exact A|]. split; [exact B|]. intros t incl l O S X f flt s. now apply H.
Qed.
Lemma over_mono h n (P Q : CatalogModel.traversal -> bool -> list nat -> Prop) : (forall t incl l, P t incl l -> Q t incl l) -> over h n P -> over h n Q.
Proof. intros H (tr & A & B & C). exists tr. split; [exact A|]. split; [exact B|]. intros. now apply H, C. Qed.
Lemma calls_ok {X} (body : nat -> @res (option X)) (r : nat -> option X) l : (forall m, In m l -> body m = Ok (r m)) ->
  CatalogSpec.calls (guarded (fun (s : unit) m => (s, body m))) (tt, None) l = ((tt, None), map r l).
Proof.
  induction l as [|m l IH]; intros H; cbn [CatalogSpec.calls map]; [reflexivity|]. unfold guarded at 1. cbn [snd fst]. rewrite H by (now left). rewrite IH by (intros x I; apply H; now right). reflexivity.
Qed.
Lemma calls_stop {S X} (body : S -> nat -> S * @res (option X)) s e l : exists rs, CatalogSpec.calls (guarded body) (s, Some e) l = ((s, Some e), rs).
Proof. induction l as [|m l (rs & IH)]; cbn [CatalogSpec.calls]; [eauto|]. unfold guarded at 1. cbn [snd fst]. rewrite IH. eauto. Qed.
Lemma calls_err {X} (body : nat -> @res (option X)) l : (forall m, In m l -> body m <> OutOfFuel) -> (exists m e, In m l /\ body m = Raise e) ->
  exists e rs, CatalogSpec.calls (guarded (fun (s : unit) m => (s, body m))) (tt, None) l = ((tt, Some e), rs) /\ exists m, In m l /\ body m = Raise e.
Proof.
  induction l as [|m l IH]; intros F (x & e & I & E); [destruct I|]. cbn [CatalogSpec.calls]. unfold guarded at 1. cbn [snd fst]. destruct (body m) as [r|e'|] eqn:B.
  - destruct I as [->|I]; [congruence|]. destruct IH as (e'' & rs & H & y & Iy & Ey); [intros y Y; apply F; now right|eauto|]. rewrite H. exists e'', (r :: rs). split; [reflexivity|]. exists y. split; [now right|exact Ey].
  - destruct (calls_stop (fun (s : unit) m => (s, body m)) tt e' l) as (rs & H). rewrite H. exists e', (None :: rs). split; [reflexivity|]. exists m. split; [now left|exact B].
  - destruct (F m); [now left|exact B].
Qed.
Definition visits h t incl n l := forall S X (f : S -> nat -> S * option X) flt s, CatalogModel.visit h (CatalogModel.enough h) f t flt incl n s = Ok (CatalogSpec.visited f flt s l).
Lemma filter_all {A} (p : A -> bool) l : (forall a, In a l -> p a = true) -> filter p l = l.
Proof. induction l as [|a l IH]; intros H; cbn; [reflexivity|]. rewrite H by (now left). f_equal. apply IH. intros b B. apply H. now right. Qed.
Lemma look_ok {X} h t incl n l g (body : nat -> @res (option X)) (r : nat -> option X) : visits h t incl n l -> (forall m, In m (accepted g l) -> body m = Ok (r m)) ->
  (g = None \/ forall m, In m (accepted g l) -> r m <> None) -> look h body t (filterArg g) incl n = Ok (map r (accepted g l)).
Proof.
  intros Vs H N. unfold look, walk. rewrite Vs. unfold CatalogSpec.visited. destruct g as [g|]; cbn [filterArg accepted] in *.
  - rewrite (calls_ok body r) by trivial. cbn [snd]. rewrite filter_all; [reflexivity|]. intros o I. apply in_map_iff in I. destruct I as (m & <- & I). destruct N as [N|N]; [discriminate|]. specialize (N m I). destruct (r m); [reflexivity|contradiction].
  - rewrite (calls_ok body r) by trivial. reflexivity.
Qed.
Lemma look_err {X} h t incl n l g (body : nat -> @res (option X)) : visits h t incl n l -> (forall m, In m (accepted g l) -> body m <> OutOfFuel) -> (exists m e, In m (accepted g l) /\ body m = Raise e) ->
  exists e, look h body t (filterArg g) incl n = Raise e /\ exists m, In m (accepted g l) /\ body m = Raise e.
Proof.
  intros Vs F E. destruct (calls_err body _ F E) as (e & rs & C & W). exists e. split; [|exact W]. unfold look, walk. rewrite Vs. unfold CatalogSpec.visited. destruct g as [g|]; cbn [filterArg accepted] in *; rewrite C; reflexivity.
Qed.
Lemma mapM_ok {A B} (f : A -> @res B) (r : A -> B) l : (forall a, In a l -> f a = Ok (r a)) -> mapM f l = Ok (map r l).
Proof. induction l as [|a l IH]; intros H; cbn; [reflexivity|]. rewrite H by (now left). cbn. rewrite IH by (intros b B'; apply H; now right). reflexivity. Qed.
Lemma mapM_err {A B} (f : A -> @res B) l : (forall a, In a l -> f a <> OutOfFuel) -> (exists a e, In a l /\ f a = Raise e) -> exists e, mapM f l = Raise e /\ exists a, In a l /\ f a = Raise e.
Proof.
  induction l as [|a l IH]; intros F (x & e & I & E); [destruct I|]. cbn. destruct (f a) as [b|e'|] eqn:Ea; cbn.
  - destruct I as [->|I]; [congruence|]. destruct IH as (e' & H & y & Iy & Ey); [intros y Y; apply F; now right|eauto|]. rewrite H. cbn. exists e'. split; [reflexivity|]. exists y. split; [now right|exact Ey].
  - exists e'. split; [reflexivity|]. exists a. split; [now left|exact Ea].
  - destruct (F a); [now left|exact Ea].
Qed.
Lemma caught_spec e : In e [KeyError; IndexError; TypeError; AttributeError] -> caught e = true.
Proof. cbn. intros [<-|[<-|[<-|[<-|[]]]]]; reflexivity. Qed.

Section Proofs.
Context {V : Type}.
Variable int_src : Z -> nat.
Variable h : heap.
Variable other : nat -> str -> option V.
Notation world := (@world V).
Notation answer := (@answer V).
Notation reach := (FnProof.reach int_src).
Notation ginv := (FnProof.ginv int_src).

Lemma suffix_split (k : str) : Nat.leb 4 (List.length k) = true -> k = body k ++ suffix k.
Proof. intros _. unfold body, suffix. symmetry. apply firstn_skipn. Qed.
Lemma item_cell (w : world) m k : ginv w -> plain k -> match cell h other w m k with Some o => item h other w m k = Ok (option_map Value o) | None => exists e, item h other w m k = Raise e /\ In e [KeyError; IndexError; TypeError; AttributeError] end.
Proof.
  intros G P. unfold cell, item. destruct (kindOf h m) as [[| |]|]; cbn [In]; eauto 8.
  - destruct (other m k); cbn; eauto 8.
  - unfold FnModel.getitem, parse_key, vals_of. destruct (has (n_names (nodes w m)) k) eqn:H; cbn [bindr].
    + pose proof H as I. apply has_in in I. destruct (proj2 (proj1 G m) k I) as (i & A & _). rewrite A. unfold getCurr. destruct (vals (f_vals (fobjs w i))); reflexivity.
    + destruct (str_eqb (suffix k) (L "_src") && Nat.leb 4 (List.length k)) eqn:E1; [apply andb_true_iff in E1; destruct E1 as (E1 & E2); apply str_eqb_spec in E1; pose proof (suffix_split k E2) as X; rewrite E1 in X; destruct (P (body k)); contradiction|].
      destruct (str_eqb (suffix k) (L "_err") && Nat.leb 4 (List.length k)) eqn:E3; [apply andb_true_iff in E3; destruct E3 as (E3 & E2); apply str_eqb_spec in E3; pose proof (suffix_split k E2) as X; rewrite E3 in X; destruct (P (body k)); contradiction|].
      exists IndexError. cbn. auto.
Qed.
Lemma visitfunc_fill (w : world) zero m conv k n : ginv w -> plain k -> tame conv -> m <> MRaise -> visitfunc h other w zero m conv k n = Ok (value h other w conv (match m with MFill d => d | _ => zero end) n k).
Proof.
  intros G P T M. unfold visitfunc, value. pose proof (item_cell w n k G P) as C. destruct (cell h other w n k) as [o|].
  - rewrite C. cbn [bindr]. destruct (T (option_map Value o)) as [(y & E)|(e & E & I)]; rewrite E; destruct m; try contradiction; try reflexivity; now rewrite (caught_spec e I).
  - destruct C as (e & E & I). rewrite E. cbn [bindr]. destruct m; try contradiction; now rewrite (caught_spec e I).
Qed.
Lemma maskfunc_present (w : world) k n : ginv w -> plain k -> maskfunc h other w k n = Ok (Some (present h other w n k)).
Proof.
  intros G P. unfold maskfunc, present. pose proof (item_cell w n k G P) as C. destruct (cell h other w n k); [now rewrite C|]. destruct C as (e & E & I). rewrite E. now rewrite (caught_spec e I).
Qed.
Lemma srcfunc_source (w : world) k n : ginv w -> clean w -> srcfunc h w k n = Ok (source h w n k).
Proof.
  intros G C. unfold srcfunc, source, is_field, vals_of. destruct (kindOf h n) as [[| |]|]; try reflexivity. destruct (has (n_names (nodes w n)) k) eqn:H.
  - apply has_in in H. destruct (proj2 (proj1 G n) k H) as (i & A & _). rewrite A. unfold getCurr. destruct (vals (f_vals (fobjs w i))); reflexivity.
  - apply has_out in H. destruct (n_attr (nodes w n) k) as [i|] eqn:A; [destruct H; eauto|reflexivity].
Qed.
Lemma tabled_of {A} (names : list str) (f : str -> list A) : tabled (map f names) = table_of names f.
Proof. destruct names as [|k [|k' r]]; reflexivity. Qed.

(** ** Theorems *)
(** C133: with a fill value: for each name, the (converted) values of the visited nodes that the filter accepts, in order, and the fill value where a node has no such Field (or the converter fails) *)
Theorem C133_fill : forall (w : world) n, reach w -> CatalogSpec.reachable h -> (exists x, base.lookup n h = Some x) -> over h n (fun t incl l =>
  forall g names zero d conv, Forall plain names -> tame conv -> (g = None \/ forall m k, In m (accepted g l) -> In k names -> value h other w conv d m k <> None) ->
  extractFieldAtNode h other w n names t g zero (MFill d) conv false incl = Ok (Result (table_of names (fun k => map (fun m => value h other w conv d m k) (accepted g l))) None None)).
Proof.
  intros w n R Rh E. pose proof (reach_inv int_src w R) as G. generalize (visit_at h n Rh E). apply over_mono. intros t incl l Vs g names zero d conv P T N. unfold extractFieldAtNode.
  rewrite (mapM_ok _ (fun k => (map (fun m => value h other w conv d m k) (accepted g l), map (fun m => Some (present h other w m k)) (accepted g l)))).
  - cbn [bindr]. cbn [option_map]. rewrite map_map. cbn [fst]. now rewrite tabled_of.
  - intros k K. rewrite Forall_forall in P. rewrite (look_ok h t incl n l g _ (fun m => value h other w conv d m k)); trivial; cycle 1.
    + intros m M. now rewrite visitfunc_fill by (auto; discriminate).
    + destruct N as [N|N]; [now left|right; intros; now apply N].
    + cbn [bindr]. rewrite (look_ok h t incl n l g _ (fun m => Some (present h other w m k))); trivial; [intros m M; now apply maskfunc_present; auto|right; discriminate].
Qed.
(** C133: missing='mask': the values with zero where they are missing, and a mask that is True where the node HAS the Field *)
Theorem C133_mask : forall (w : world) n, reach w -> CatalogSpec.reachable h -> (exists x, base.lookup n h = Some x) -> over h n (fun t incl l =>
  forall g names zero conv, Forall plain names -> tame conv -> (g = None \/ forall m k, In m (accepted g l) -> In k names -> value h other w conv zero m k <> None) ->
  extractFieldAtNode h other w n names t g zero MMask conv false incl =
    Ok (Result (table_of names (fun k => map (fun m => value h other w conv zero m k) (accepted g l))) (Some (table_of names (fun k => map (fun m => Some (present h other w m k)) (accepted g l)))) None)).
Proof.
  intros w n R Rh E. pose proof (reach_inv int_src w R) as G. generalize (visit_at h n Rh E). apply over_mono. intros t incl l Vs g names zero conv P T N. unfold extractFieldAtNode.
  rewrite (mapM_ok _ (fun k => (map (fun m => value h other w conv zero m k) (accepted g l), map (fun m => Some (present h other w m k)) (accepted g l)))).
  - cbn [bindr]. cbn [option_map]. rewrite !map_map. cbn [fst snd]. now rewrite !tabled_of.
  - intros k K. rewrite Forall_forall in P. rewrite (look_ok h t incl n l g _ (fun m => value h other w conv zero m k)); trivial; cycle 1.
    + intros m M. now rewrite visitfunc_fill by (auto; discriminate).
    + destruct N as [N|N]; [now left|right; intros; now apply N].
    + cbn [bindr]. rewrite (look_ok h t incl n l g _ (fun m => Some (present h other w m k))); trivial; [intros m M; now apply maskfunc_present; auto|right; discriminate].
Qed.
Lemma sift_filter {A} (p : nat -> bool) (f : nat -> A) l : sift (map f l) (map (fun b => match b with Some true => true | _ => false end) (map (fun m => Some (p m)) l)) = map f (filter p l).
Proof. induction l as [|m l IH]; cbn; [reflexivity|]. rewrite IH. destruct (p m); reflexivity. Qed.
(** C133: missing='skip': only the nodes with the first Field *)
Theorem C133_skip : forall (w : world) n, reach w -> CatalogSpec.reachable h -> (exists x, base.lookup n h = Some x) -> over h n (fun t incl l =>
  forall g k0 names zero conv, Forall plain (k0 :: names) -> tame conv -> (g = None \/ forall m k, In m (accepted g l) -> In k (k0 :: names) -> value h other w conv zero m k <> None) -> accepted g l <> [] ->
  extractFieldAtNode h other w n (k0 :: names) t g zero MSkip conv false incl =
    Ok (Result (table_of (k0 :: names) (fun k => map (fun m => value h other w conv zero m k) (filter (fun m => present h other w m k0) (accepted g l)))) None None)).
Proof.
  intros w n R Rh E. pose proof (reach_inv int_src w R) as G. generalize (visit_at h n Rh E). apply over_mono. intros t incl l Vs g k0 names zero conv P T N Ne. unfold extractFieldAtNode.
  rewrite (mapM_ok _ (fun k => (map (fun m => value h other w conv zero m k) (accepted g l), map (fun m => Some (present h other w m k)) (accepted g l)))).
  - cbn [bindr]. set (cols := map _ (k0 :: names)). assert (X : forall b, b = map (fun m => Some (present h other w m k0)) (accepted g l) -> mapM (fun c : list (option answer) * list (option bool) => pickMask b (fst c)) cols = Ok (map (fun k => map (fun m => value h other w conv zero m k) (filter (fun m => present h other w m k0) (accepted g l))) (k0 :: names))).
    { intros b ->. unfold cols. rewrite <- (map_map (fun k => (map (fun m => value h other w conv zero m k) (accepted g l), map (fun m => Some (present h other w m k)) (accepted g l))) (fun c => sift (fst c) (map (fun b => match b with Some true => true | _ => false end) (map (fun m => Some (present h other w m k0)) (accepted g l))))) || idtac.
      rewrite (mapM_ok _ (fun c => sift (fst c) (map (fun b => match b with Some true => true | _ => false end) (map (fun m => Some (present h other w m k0)) (accepted g l))))).
      - rewrite map_map. f_equal. apply map_ext. intros k. cbn [fst]. apply sift_filter.
      - intros c C. apply in_map_iff in C. destruct C as (k & <- & _). cbn [fst]. unfold pickMask. rewrite !map_length, Nat.eqb_refl. destruct (accepted g l); [contradiction|reflexivity]. }
    unfold cols at 1. cbn [map]. rewrite X by reflexivity. cbn [bindr]. now rewrite tabled_of.
  - intros k K. rewrite Forall_forall in P. rewrite (look_ok h t incl n l g _ (fun m => value h other w conv zero m k)); trivial; cycle 1.
    + intros m M. now rewrite visitfunc_fill by (auto; discriminate).
    + destruct N as [N|N]; [now left|right; intros; now apply N].
    + cbn [bindr]. rewrite (look_ok h t incl n l g _ (fun m => Some (present h other w m k))); trivial; [intros m M; now apply maskfunc_present; auto|right; discriminate].
Qed.
(** C133: missing='raise': the values if all nodes have all Fields, else an error *)
Theorem C133_raise : forall (w : world) n, reach w -> CatalogSpec.reachable h -> (exists x, base.lookup n h = Some x) -> over h n (fun t incl l =>
  forall g names zero, Forall plain names ->
  ((forall m k, In m (accepted g l) -> In k names -> present h other w m k = true) -> (g = None \/ forall m k, In m (accepted g l) -> In k names -> cell h other w m k <> Some None) ->
     extractFieldAtNode h other w n names t g zero MRaise (fun o => Ok o) false incl = Ok (Result (table_of names (fun k => map (fun m => value h other w (fun o => Ok o) zero m k) (accepted g l))) None None)) /\
  ((exists m k, In m (accepted g l) /\ In k names /\ present h other w m k = false) -> exists e, extractFieldAtNode h other w n names t g zero MRaise (fun o => Ok o) false incl = Raise e /\ In e [IndexError; TypeError; AttributeError])).
Proof.
  intros w n R Rh E. pose proof (reach_inv int_src w R) as G. generalize (visit_at h n Rh E). apply over_mono. intros t incl l Vs g names zero P. rewrite Forall_forall in P. unfold extractFieldAtNode.
  assert (B : forall k m, In k names -> present h other w m k = true -> visitfunc h other w zero MRaise (fun o => Ok o) k m = Ok (value h other w (fun o => Ok o) zero m k)).
  { intros k m K Pr. unfold visitfunc, value. unfold present in Pr. pose proof (item_cell w m k G (P k K)) as C. destruct (cell h other w m k) as [o|]; [|discriminate]. rewrite C. reflexivity. }
  assert (Bn : forall k m, In k names -> present h other w m k = false -> exists e, visitfunc h other w zero MRaise (fun o => Ok o) k m = Raise e /\ In e [IndexError; TypeError; AttributeError]).
  { intros k m K Pr. unfold visitfunc. unfold present in Pr. pose proof (item_cell w m k G (P k K)) as C. destruct (cell h other w m k) as [o|]; [discriminate|]. destruct C as (e & C & I). rewrite C. exists e. split; [reflexivity|]. destruct I as [<-|I]; [|exact I]. exfalso. revert C. unfold item, FnModel.getitem, parse_key. destruct (kindOf h m) as [[| |]|]; try discriminate; [destruct (other m k); discriminate|].
    destruct (has _ k); [|destruct (_ && _); [|destruct (_ && _); [|discriminate]]]; cbn [bindr]; match goal with |- context [match n_attr ?a ?b with _ => _ end] => destruct (n_attr a b) as [i|]; [|discriminate] end; unfold getCurr; destruct (vals _); discriminate. }
  split.
  - intros Pr N. rewrite (mapM_ok _ (fun k => (map (fun m => value h other w (fun o => Ok o) zero m k) (accepted g l), map (fun m => Some (present h other w m k)) (accepted g l)))).
    + cbn [bindr]. cbn [option_map]. rewrite map_map. cbn [fst]. now rewrite tabled_of.
    + intros k K. rewrite (look_ok h t incl n l g _ (fun m => value h other w (fun o => Ok o) zero m k)); trivial; cycle 1.
      * intros m M. apply B; auto.
      * destruct N as [N|N]; [now left|right]. intros m M. specialize (N m k M K). specialize (Pr m k M K). unfold value. unfold present in Pr. destruct (cell h other w m k) as [[x|]|]; try discriminate. contradiction.
      * cbn [bindr]. rewrite (look_ok h t incl n l g _ (fun m => Some (present h other w m k))); trivial; [intros m M; now apply maskfunc_present; auto|right; discriminate].
  - intros (m & k & M & K & Pr). set (f := fun k => bindr _ _).
    assert (F : forall k, In k names -> f k <> OutOfFuel /\ forall e, f k = Raise e -> In e [IndexError; TypeError; AttributeError]).
    { intros k' K'. unfold f. destruct (existsb (fun m => negb (present h other w m k')) (accepted g l)) eqn:Ex.
      - apply existsb_exists in Ex. destruct Ex as (m' & M' & Pr'). apply negb_true_iff in Pr'. destruct (Bn k' m' K' Pr') as (e' & E' & _). destruct (look_err h t incl n l g (visitfunc h other w zero MRaise (fun o => Ok o) k')) as (e & L & y & Iy & Ey); trivial.
        + intros y Y. destruct (present h other w y k') eqn:Z; [rewrite B by trivial; discriminate|]. destruct (Bn k' y K' Z) as (e & -> & _). discriminate.
        + eauto.
        + rewrite L. cbn [bindr]. split; [discriminate|]. intros e0 [= <-]. destruct (present h other w y k') eqn:Z; [rewrite B in Ey by trivial; discriminate|]. destruct (Bn k' y K' Z) as (e0 & X & I). congruence.
      - assert (All : forall m, In m (accepted g l) -> present h other w m k' = true) by (intros y Y; destruct (present h other w y k') eqn:Z; trivial; rewrite <- Ex; apply existsb_exists; exists y; now rewrite Z).
        pose proof (calls_ok (visitfunc h other w zero MRaise (fun o => Ok o) k') (fun m => value h other w (fun o => Ok o) zero m k') (accepted g l) (fun m M => B k' m K' (All m M))) as C.
        assert (Lv : exists r, look h (visitfunc h other w zero MRaise (fun o => Ok o) k') t (filterArg g) incl n = Ok r) by (unfold look, walk; rewrite Vs; unfold CatalogSpec.visited; destruct g as [g|]; cbn [filterArg accepted] in *; rewrite C; cbn [snd]; eauto).
        destruct Lv as (r & Lv). rewrite Lv. cbn [bindr].
        assert (Lm : look h (maskfunc h other w k') t (filterArg g) incl n = Ok (map (fun m => Some (present h other w m k')) (accepted g l))) by (apply (look_ok h t incl n l g _ (fun m => Some (present h other w m k'))); [exact Vs|intros y Y; apply maskfunc_present; auto|right; discriminate]).
        rewrite Lm. cbn [bindr]. split; [discriminate|]. intros e0 X0. discriminate X0. }
    destruct (mapM_err f names) as (e & Me & y & Iy & Ey).
    + intros a A. now apply F.
    + exists k. destruct (Bn k m K Pr) as (e' & E' & _). destruct (look_err h t incl n l g (visitfunc h other w zero MRaise (fun o => Ok o) k)) as (e & L & _); trivial.
      * intros y Y. destruct (present h other w y k) eqn:Z; [rewrite B by trivial; discriminate|]. destruct (Bn k y K Z) as (e & -> & _). discriminate.
      * eauto.
      * exists e. split; [exact K|]. unfold f. now rewrite L.
    + exists e. rewrite Me. cbn [bindr]. split; [reflexivity|]. now apply (F y Iy).
Qed.
(** C133: sources: that of the current value of each node, None where there is none *)
Theorem C133_sources : forall (w : world) n, reach w -> clean w -> CatalogSpec.reachable h -> (exists x, base.lookup n h = Some x) -> over h n (fun t incl l =>
  forall names zero d conv, Forall plain names -> tame conv ->
  extractFieldAtNode h other w n names t None zero (MFill d) conv true incl = Ok (Result (table_of names (fun k => map (fun m => value h other w conv d m k) l)) None (Some (table_of names (fun k => map (fun m => source h w m k) l))))).
Proof.
  intros w n R Cl Rh E. pose proof (reach_inv int_src w R) as G. generalize (visit_at h n Rh E). apply over_mono. intros t incl l Vs names zero d conv P T. unfold extractFieldAtNode.
  rewrite (mapM_ok _ (fun k => (map (fun m => value h other w conv d m k) l, map (fun m => Some (present h other w m k)) l))).
  - cbn [bindr]. rewrite (mapM_ok _ (fun k => map (fun m => source h w m k) l)).
    + cbn [bindr option_map]. rewrite map_map. cbn [fst]. now rewrite !tabled_of.
    + intros k K. apply (look_ok h t incl n l None _ (fun m => source h w m k)); trivial; [intros m M; now apply srcfunc_source|now left].
  - intros k K. rewrite Forall_forall in P. rewrite (look_ok h t incl n l None _ (fun m => value h other w conv d m k)); trivial; cycle 1.
    + intros m M. now rewrite visitfunc_fill by (auto; discriminate).
    + now left.
    + cbn [bindr]. rewrite (look_ok h t incl n l None _ (fun m => Some (present h other w m k))); trivial; [intros m M; now apply maskfunc_present; auto|right; discriminate].
Qed.
(** C133: getFieldValueNodesAtNode (locateName): the visited FieldNodes whose Field currently has the value, in order *)
Theorem C133_locate : forall (w : world) n, reach w -> clean w -> CatalogSpec.reachable h -> (exists x, base.lookup n h = Some x) -> over h n (fun t incl l =>
  forall eqv k x, (forall m, In m l -> is_field h m = true -> cell h other w m k <> Some None) ->
  getFieldValueNodesAtNode h eqv w n k x t incl = Ok (map Some (filter (fun m => is_field h m && match cell h other w m k with Some (Some y) => eqv y x | _ => false end) l))).
Proof.
  intros w n R Cl Rh E. pose proof (reach_inv int_src w R) as G. generalize (visit_at h n Rh E). apply over_mono. intros t incl l Vs eqv k x N. unfold getFieldValueNodesAtNode, look, walk. rewrite Vs. unfold CatalogSpec.visited, noneFilter.
  rewrite (calls_ok _ (fun m => if is_field h m && match cell h other w m k with Some (Some y) => eqv y x | _ => false end then Some m else None)).
  - cbn [snd]. f_equal. clear. induction l as [|m l IH]; cbn; [reflexivity|]. destruct (_ && _); cbn; now rewrite IH.
  - intros m M. specialize (N m M). unfold fieldIs, is_field, cell, vals_of in *. destruct (kindOf h m) as [[| |]|]; try reflexivity. destruct (has (n_names (nodes w m)) k) eqn:H.
    + apply has_in in H. destruct (proj2 (proj1 G m) k H) as (i & A & _). rewrite A in *. unfold getCurr. destruct (vals (f_vals (fobjs w i))) as [|v r]; cbn in *; [destruct (N eq_refl eq_refl)|]. destruct (eqv (v_val v) x); reflexivity.
    + apply has_out in H. destruct (n_attr (nodes w m) k) as [i|] eqn:A; [destruct H; eauto|reflexivity].
Qed.
(** C133: getFieldNames: exactly the names of the Fields of the nodes of the catalog *)
Theorem C133_names : forall (w : world) n, CatalogSpec.reachable h -> (exists x, base.lookup n h = Some x) ->
  exists s, getFieldNames h w n = Ok s /\ forall k, In k s <-> exists m, CatalogSpec.within h n m /\ is_field h m = true /\ In k (n_names (nodes w m)).
Proof.
  intros w n Rh E. destruct (CatalogProps.C12_visit h n Rh E) as (tr & _ & _ & _ & W & _ & Vs). unfold getFieldNames, walk. rewrite (Vs _ _ _ CatalogModel.TPost _ true _ (CatalogSpec.postorder tr) eq_refl). cbn [CatalogSpec.visited].
  assert (X : forall l s0, exists rs s, CatalogSpec.calls (guarded (fun (s : list str) m => (match kindOf h m with Some CatalogModel.KField => s ++ n_names (nodes w m) | _ => s end, Ok (@None nat)))) (s0, None) l = ((s, None), rs) /\ forall k, In k s <-> In k s0 \/ exists m, In m l /\ is_field h m = true /\ In k (n_names (nodes w m))).
  { induction l as [|m l IH]; intros s0; cbn [CatalogSpec.calls].
    - exists [], s0. split; [reflexivity|]. intros k. split; [tauto|]. intros [H|(m & [] & _)]; exact H.
    - unfold guarded at 1. cbn [snd fst]. destruct (IH (match kindOf h m with Some CatalogModel.KField => s0 ++ n_names (nodes w m) | _ => s0 end)) as (rs & s & C & H). rewrite C. exists (None :: rs), s. split; [reflexivity|]. intros k. rewrite H. unfold is_field. split.
      + intros [A|(m' & A & B & D)]; [|right; exists m'; split; [now right|auto]]. destruct (kindOf h m) as [[| |]|] eqn:K; auto. apply in_app_iff in A. destruct A as [A|A]; [now left|]. right. exists m. rewrite K. split; [now left|auto].
      + intros [A|(m' & [<-|A] & B & D)]; [left|left|right; eauto]; destruct (kindOf h m) as [[| |]|] eqn:K; auto; try discriminate; apply in_app_iff; auto. }
  destruct (X (CatalogSpec.postorder tr) []) as (rs & s & C & H). rewrite C. exists s. split; [reflexivity|]. intros k. rewrite H. split.
  - intros [[]|(m & A & B)]. exists m. split; [|exact B]. apply W. now apply (Permutation.Permutation_in _ (proj1 (CatalogProps.C12_orders tr 0%Z))).
  - intros (m & A & B). right. exists m. split; [|exact B]. apply (Permutation.Permutation_in _ (Permutation.Permutation_sym (proj1 (CatalogProps.C12_orders tr 0%Z)))). now apply W.
Qed.
(** C133: setToSourceAtNode: in each FieldNode of the subtree the value of the source is put in front in each Field that has one; nothing else changes, and the FieldNodes are returned *)
Lemma moved_twice s (l : list (@fval V)) : moved s (moved s l) = moved s l.
Proof.
  unfold moved at 2 3. destruct (List.find (fun v => Nat.eqb (v_src v) s) l) as [v|] eqn:F; [|unfold moved; now rewrite F]. pose proof (find_some _ _ F) as (_ & E). unfold moved. cbn [List.find filter]. rewrite E. cbn [negb]. f_equal.
  apply filter_all. intros a A. now apply filter_In in A.
Qed.
Lemma sts_obs (w : world) n src s : ginv w -> names_source src s -> let w' := fst (setToSource w n src Skip) in
  snd (setToSource w n src Skip) = Ok tt /\ ginv w' /\ shape w w' /\ forall m k, vals_of w' m k = if Nat.eqb m n then moved s (vals_of w m k) else vals_of w m k.
Proof.
  intros G Hs. unfold setToSource. destruct (toSource_skip int_src src s n (n_names (nodes w n)) Hs w G (proj1 (proj1 G n)) (fun k H => H)) as (A & B & C). destruct (toSource_inv int_src n src Skip (n_names (nodes w n)) w G) as (G' & Sh).
  cbv zeta. split; [exact A|]. split; [exact G'|]. split; [exact Sh|]. intros m k. unfold vals_of. rewrite (proj1 Sh). destruct (has (n_names (nodes w m)) k) eqn:H; [|now destruct (Nat.eqb m n)].
  apply has_in in H. destruct (proj2 (proj1 G m) k H) as (i & P & _ & Nm & Nd). rewrite P. destruct (Nat.eqb_spec m n) as [->|Ne].
  - unfold moved. destruct (List.find (fun v => Nat.eqb (v_src v) s) (vals (f_vals (fobjs w i)))) as [v|] eqn:F.
    + apply find_some in F. destruct F as (I & Ev). apply Nat.eqb_eq in Ev. rewrite (B i) with (v := v); trivial; [unfold in_node; rewrite Nm; auto|now rewrite Nm].
    + f_equal. rewrite C; [reflexivity|]. intros (_ & _ & I). apply in_map_iff in I. destruct I as (v & Ev & I). pose proof (find_none _ _ F v I) as X. cbn in X. rewrite Ev, Nat.eqb_refl in X. discriminate.
  - rewrite C; [reflexivity|]. intros ((I1 & I2) & _). destruct (proj2 (proj1 G n) _ I1) as (j & Q & _ & _ & Nd'). congruence.
Qed.
Theorem C133_setToSource : forall (w : world) n src s, reach w -> names_source src s -> CatalogSpec.reachable h -> (exists x, base.lookup n h = Some x) -> over h n (fun t incl l => incl = true -> exists w',
  setToSourceAtNode h w n src Skip t = (w', Ok (map Some (filter (is_field h) l))) /\ nodes w' = nodes w /\
  forall m k, vals_of w' m k = if existsb (Nat.eqb m) (filter (is_field h) l) then moved s (vals_of w m k) else vals_of w m k).
Proof.
  intros w n src s R Hs Rh E. pose proof (reach_inv int_src w R) as G. generalize (visit_at h n Rh E). apply over_mono. intros t incl l Vs ->. unfold setToSourceAtNode, walk. rewrite Vs. unfold CatalogSpec.visited, noneFilter. set (body := fun (w : world) m' => _).
  assert (X : forall l w, ginv w -> exists w', CatalogSpec.calls (guarded body) (w, None) l = ((w', None), map (fun m => if is_field h m then Some m else None) l) /\ nodes w' = nodes w /\
    forall m k, vals_of w' m k = if existsb (Nat.eqb m) (filter (is_field h) l) then moved s (vals_of w m k) else vals_of w m k).
  { clear - Hs. induction l as [|m l IH]; intros w G; cbn [CatalogSpec.calls map filter]; [exists w; repeat split|]. unfold guarded at 1, body at 1. cbn [snd fst]. unfold is_field at 1 3. destruct (kindOf h m) as [[| |]|] eqn:K.
    2:{ destruct (sts_obs w m src s G Hs) as (A & G1 & Sh & O). destruct (setToSource w m src Skip) as [w1 r] eqn:S. cbn [fst snd] in *. subst r. cbn [bindr]. destruct (IH w1 G1) as (w' & C & N & O'). rewrite C. exists w'. split; [reflexivity|]. split; [rewrite N; apply Sh|].
        intros m' k. rewrite O', O. cbn [existsb]. destruct (Nat.eqb_spec m' m) as [->|Ne]; cbn [orb]; [destruct (existsb _ _); [apply moved_twice|reflexivity]|reflexivity]. }
    all: destruct (IH w G) as (w' & C & N & O'); rewrite C; exists w'; split; [reflexivity|split; [exact N|exact O']]. }
  destruct (X l w G) as (w' & C & N & O). rewrite C. exists w'. split; [|split; [exact N|exact O]]. f_equal. f_equal. clear. induction l as [|m l IH]; cbn; [reflexivity|]. destruct (is_field h m); cbn; now rewrite IH.
Qed.
End Proofs.

(** ** Refuted *)
(** missing='skip' with sources is always an error *)
Theorem C133_skip_sources_refuted : forall (V : Type) h other (w : @world V) n names t g zero conv incl r, extractFieldAtNode h other w n names t g zero MSkip conv true incl <> Ok r.
Proof.
  intros V h other w n names t g zero conv incl r. unfold extractFieldAtNode.
  match goal with |- bindr ?a _ <> _ => destruct a as [cols| |]; cbn [bindr]; try discriminate end.
  match goal with |- bindr ?a _ <> _ => destruct a as [lsts| |]; cbn [bindr]; try discriminate end.
  match goal with |- bindr (bindr ?a _) _ <> _ => destruct a as [srcs| |]; cbn [bindr]; discriminate end.
Qed.
(** a catalog 0 with the FieldNodes 1 (x is 30 of source 3) and 2 (x empty), 4 (no x) in 1 and the action 3 *)
Definition yh : heap := CatalogModel.run (base.empty) [CatalogModel.ONew 0 CatalogModel.KCatalog None false; CatalogModel.ONew 1 CatalogModel.KField (Some 0) false; CatalogModel.ONew 2 CatalogModel.KField (Some 0) false; CatalogModel.ONew 3 CatalogModel.KAction (Some 0) false; CatalogModel.ONew 4 CatalogModel.KField (Some 1) false].
Definition yw : @world nat := fold_left (FnProof.step (fun _ => 0)) [OAdd 1 (FName (L "x")); OAdd 2 (FName (L "x")); OSet 1 (NStr (L "x")) (CInp (IPair 3 30)); OAdd 4 (FName (L "y"))] newWorld.
Lemma yh_reach : CatalogSpec.reachable yh. Proof. eexists. split; [|reflexivity]. repeat constructor. Qed.
Lemma yw_reach : FnProof.reach (fun _ => 0) yw.
Proof. unfold yw. cbn [fold_left]. apply reach_step; [apply reach_step; [apply reach_step; [apply reach_step; [apply reach_new|exact I]|exact I]|exact I]|exact I]. Qed.
(** with a filter function, an empty Field is left out of the values but not of the mask *)
Theorem C133_filter_refuted : CatalogSpec.reachable yh /\ FnProof.reach (fun _ => 0) yw /\
  extractFieldAtNode yh (fun _ _ => None) yw 0 [L "x"] CatalogModel.TPost (Some (fun _ => true)) (Some (Value 0)) MMask (fun o => Ok o) false false =
    Ok (Result (One [Some (Value 0); Some (Value 30); Some (Value 0)]) (Some (One [Some false; Some true; Some true; Some false])) None).
Proof. split; [apply yh_reach|]. split; [apply yw_reach|]. vm_compute. reflexivity. Qed.
(** an empty Field makes the search for a value fail *)
Theorem C133_locate_refuted : CatalogSpec.reachable yh /\ FnProof.reach (fun _ => 0) yw /\ getFieldValueNodesAtNode yh Nat.eqb yw 0 (L "x") 30 CatalogModel.TPost false = Raise IndexError /\
  getFieldValueNodesAtNode yh Nat.eqb yw 1 (L "x") 30 CatalogModel.TPost true = Ok [Some 1].
Proof. split; [apply yh_reach|]. split; [apply yw_reach|]. vm_compute. repeat split. Qed.
Example ex_extract : (exists x, base.lookup 0 yh = Some x) /\
  extractFieldAtNode yh (fun _ _ => None) yw 0 [L "x"; L "y"] CatalogModel.TPost None (Some (Value 0)) (MFill (Some (Value 7))) (fun o => Ok o) true false =
    Ok (Result (Many [[Some (Value 7); Some (Value 30); None; Some (Value 7)]; [None; Some (Value 7); Some (Value 7); Some (Value 7)]]) None (Some (Many [[None; Some 3; None; None]; [None; None; None; None]]))) /\
  extractFieldAtNode yh (fun _ _ => None) yw 0 [L "x"] CatalogModel.TPre None (Some (Value 0)) MSkip (fun o => Ok o) false true = Ok (Result (One [Some (Value 30); None]) None None) /\
  getFieldNames yh yw 0 = Ok [L "y"; L "x"; L "x"] /\ snd (setToSourceAtNode yh yw 1 (KName 3 None) Skip CatalogModel.TPost) = Ok [Some 4; Some 1].
Proof. split; [eexists; vm_compute; reflexivity|]. vm_compute. repeat split. Qed.
Example ex_plain : plain (L "x"). Proof. intros b. split; intros E; apply (f_equal (@List.length _)) in E; rewrite app_length in E; cbn in E; lia. Qed.
Lemma clean_add {V} (w : @world V) n s : clean w -> clean (fst (addField w n (FName s))).
Proof.
  intros C m k i. cbn [addField]. unfold addObj. cbn [fobjs makeField nodes]. rewrite upd_same. cbn [f_name newField f_node]. destruct (has (n_names (nodes w n)) s); cbn [fst nodes makeField with_field with_node]; [apply C|].
  unfold upd. destruct (Nat.eqb_spec m n) as [->|N]; [|apply C]. cbn [n_attr n_names]. unfold upds. destruct (str_eqb k s) eqn:E; intros H; apply in_app_iff; [right; left; symmetry; now apply str_eqb_spec|left; now apply (C n k i)].
Qed.
Lemma clean_set {V} (w : @world V) n k a : clean w -> clean (fst (FnModel.setitem w n k a)).
Proof. intros C. unfold FnModel.setitem. destruct (match k with NInt z => _ | NStr s => _ end) as [s|]; [|exact C]. destruct (n_attr (nodes w n) s) as [i|]; [|exact C]. destruct (setCurr _ _ _). exact C. Qed.
Example ex_clean : clean yw.
Proof. unfold yw. cbn [fold_left FnProof.step]. apply clean_add, clean_set, clean_add, clean_add. intros m k i. discriminate. Qed.
