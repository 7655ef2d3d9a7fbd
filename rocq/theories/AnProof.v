(** * AnProof: C130, arrays into nodes *)
From Coq Require Import List ZArith Lia Bool Ascii String.
From Verif Require Import PyBase PubModel IoColumns FieldModel FieldProofs FieldProps FnModel FnProof AnModel.
Import ListNotations.

Section Proofs.
Context {V : Type}.
Variable int_src : Z -> nat.
Notation world := (@world V).
Notation rhs := (@rhs V).
Notation fval := (@fval V).
Notation ginv := (ginv int_src).

(** ** Specification: what is seen of a node *)
(** the values of the Field of that name, none if there is no such Field *)
Definition vals_of (w : world) (n : nat) (k : str) : list fval :=
  if has (n_names (nodes w n)) k then match n_attr (nodes w n) k with Some i => vals (f_vals (fobjs w i)) | None => [] end else [].
(** does the Field of that name (a new one, without type, if there is none) accept the value? *)
Definition accepts (w : world) (n : nat) (k : str) (x : V) : bool :=
  if has (n_names (nodes w n)) k then match n_attr (nodes w n) k with Some i => t_ok (f_type (fobjs w i)) x | None => true end else true.
(** a value with its errors *)
Definition cell : Type := (V * list V)%type.
Definition stored (s : nat) (q : cell) : fval := {| v_src := s; v_val := fst q; v_errs := snd q; v_der := None |}.
Definition acceptsCell (w : world) (n : nat) (k : str) (q : cell) : Prop := accepts w n k (fst q) = true /\ forall e, In e (snd q) -> accepts w n k e = true.
(** the values of a Field after its value for the source was set: in front, or with setcurr=False in its place *)
Definition in_src (s : nat) (l : list fval) : bool := existsb (fun v => Nat.eqb (v_src v) s) l.
Definition put (setcurr : bool) (v : fval) (l : list fval) : list fval :=
  if setcurr then v :: except (v_src v) l
  else if in_src (v_src v) l then map (fun u => if Nat.eqb (v_src u) (v_src v) then v else u) l else l ++ [v].
(** the names after the columns were added *)
Definition with_cols (cols l : list str) : list str := l ++ filter (fun k => negb (has l k)) cols.
(** the cell x of column c and row k: with its upper and lower error if there are errors *)
Definition given (errs : nat -> nat -> option (V * V)) (c k : nat) (x : V) : rhs := match errs c k with None => RRaw x | Some (upper, lower) => RErr x [upper; lower] end.
(** a converter turns the input into the value and errors *)
Definition plain (r : rhs) (q : cell) : Prop := (r = RRaw (fst q) /\ snd q = []) \/ r = RErr (fst q) (snd q).
Definition gives (c : @conv V) (row : list V) (v : rhs) (q : cell) : Prop :=
  match c with COne f => exists r, f v = Ok r /\ plain r q | CTwo f => exists r, f v row = Ok r /\ plain r q | _ => False end.

(** ** Fields *)
Lemma in_src_spec s l : in_src s l = true <-> In s (map v_src l).
Proof. unfold in_src. rewrite existsb_exists, in_map_iff. split; intros (v & A & B); exists v; [apply Nat.eqb_eq in B|subst; rewrite Nat.eqb_refl]; auto. Qed.
Lemma except_app s (a b : list fval) : except s (a ++ b) = except s a ++ except s b. Proof. apply filter_app. Qed.
Lemma except_put s v l : v_src v = s -> except s (put false v l) = except s l.
Proof.
  intros <-. unfold put. destruct (in_src (v_src v) l).
  - induction l as [|a r IH]; cbn; trivial. destruct (Nat.eqb_spec (v_src a) (v_src v)) as [E|E]; cbn; [rewrite Nat.eqb_refl; cbn; exact IH|]. destruct (Nat.eqb_spec (v_src a) (v_src v)); [contradiction|]. cbn. f_equal. exact IH.
  - rewrite except_app. cbn. rewrite Nat.eqb_refl. cbn. apply app_nil_r.
Qed.
Lemma except_except s l : except s (@except V s l) = except s l.
Proof. unfold except. induction l as [|a r IH]; cbn; trivial. destruct (negb _) eqn:E; cbn; [rewrite E; f_equal; exact IH|exact IH]. Qed.
Lemma put_put sc v v' l : v_src v = v_src v' -> put sc v (put sc v' l) = put sc v l.
Proof.
  intros E. destruct sc.
  - cbn. rewrite <- E, Nat.eqb_refl. cbn. f_equal. apply except_except.
  - unfold put. rewrite <- E. destruct (in_src (v_src v) l) eqn:I.
    + assert (J : in_src (v_src v) (map (fun u => if Nat.eqb (v_src u) (v_src v) then v' else u) l) = true).
      { unfold in_src in *. rewrite existsb_exists in *. destruct I as (x & X & Y). exists v'. split; [|rewrite E; apply Nat.eqb_refl]. apply in_map_iff. exists x. rewrite Y. auto. }
      rewrite J, map_map. apply map_ext. intros u. destruct (Nat.eqb (v_src u) (v_src v)) eqn:Q; [|now rewrite Q]. rewrite <- E. now rewrite Nat.eqb_refl.
    + unfold in_src. rewrite existsb_app. cbn. rewrite <- E, Nat.eqb_refl, orb_true_r. rewrite map_app. cbn. rewrite <- E, Nat.eqb_refl. f_equal.
      transitivity (map (fun u : fval => u) l); [|apply map_id]. apply map_ext_in. intros u U. destruct (Nat.eqb (v_src u) (v_src v)) eqn:Q; trivial. exfalso. apply not_true_iff_false in I. apply I. unfold in_src. rewrite existsb_exists. eauto.
Qed.
Lemma setitem_ok (ty : @ftype V) i1 i2 f s r q : FieldProps.reachable ty int_src f -> plain r q -> t_ok ty (fst q) = true -> forallb (t_ok ty) (snd q) = true ->
  exists f', FieldModel.setitem ty i1 i2 f (KSource s) r = (f', Ok tt) /\ vals f' = put false (stored s q) (vals f) /\ FieldProps.reachable ty int_src f'.
Proof.
  intros R P T E. assert (X : exists f', FieldModel.setitem ty int_src i2 f (KSource s) r = (f', Ok tt)).
  { unfold FieldModel.setitem, contains. cbn. unfold get_src. destruct (find_src s (vals f)) as [i|] eqn:F.
    - destruct (nth_error (vals f) i) as [old|] eqn:N.
      2:{ exfalso. clear - F N. revert i F N. induction (vals f) as [|a l IH]; cbn; [discriminate|]. intros i. destruct (Nat.eqb (v_src a) s); [intros [= <-]; discriminate|]. destruct (find_src s l) as [j|]; [|discriminate]. cbn. intros [= <-]. cbn. eauto. }
      assert (So : v_src old = s). { clear - F N. revert i F N. induction (vals f) as [|a l IH]; cbn; [discriminate|]. intros i. destruct (Nat.eqb_spec (v_src a) s); [intros [= <-]; cbn; congruence|]. destruct (find_src s l) as [j|]; [|discriminate]. cbn. intros [= <-]. cbn. eauto. }
      unfold checkConvInVal. destruct P as [(-> & Q)| ->]; cbn; rewrite So, Nat.eqb_refl; unfold check_conv_type; cbn; rewrite T, ?E; cbn; eauto.
    - unfold checkConvInVal. destruct P as [(-> & Q)| ->]; cbn; rewrite F; unfold check_conv_type; cbn; rewrite T, ?E; cbn; eauto. }
  destruct X as (f' & X). exists f'. split; [exact X|]. destruct (C14_assign V ty int_src i2 f (KSource s) s r f' R (or_introl eq_refl)) as (v & Sv & A & B & C & _).
  { destruct P as [(-> & _)| ->]; exact I. }
  { exact X. }
  assert (v = stored s q) as ->. { destruct P as [(-> & Q)| ->]; [rewrite (C T); unfold stored; now rewrite Q|now apply C]. }
  split.
  - unfold put. cbn [v_src stored]. destruct (in_src s (vals f)) eqn:J; [apply A; now apply in_src_spec|]. apply B. intros K. apply in_src_spec in K. congruence.
  - pose proof (freach_step int_src ty f (FSet i2 (KSource s) r) I R) as Z. cbn [fstep] in Z. rewrite X in Z. exact Z.
Qed.
Lemma setCurr_ok (ty : @ftype V) f s v : FieldProps.reachable ty int_src f -> In v (vals f) -> v_src v = s ->
  exists f', setCurr ty f (CKey (KSource s)) = (f', Ok tt) /\ vals f' = v :: except s (vals f) /\ FieldProps.reachable ty int_src f'.
Proof.
  intros R I E. destruct (C14_lookup V ty int_src f (KSource s) s R (or_introl eq_refl)) as (A & _). destruct (A v I E) as (i & Gi & Ni).
  destruct (C14_set_current V ty int_src f R) as (C & _). destruct (C _ _ _ Gi Ni) as (f' & F & W). exists f'. rewrite E in W. split; [exact F|]. split; [exact W|].
  pose proof (fcurr_reach int_src ty f (CKey (KSource s)) R) as Z. rewrite F in Z. exact Z.
Qed.
Lemma put_in v l : In v (put false v l).
Proof.
  unfold put. destruct (in_src (v_src v) l) eqn:E; [|apply in_or_app; right; now left]. unfold in_src in E. rewrite existsb_exists in E. destruct E as (u & U & Q). apply in_map_iff. exists u. now rewrite Q.
Qed.

(** ** The world *)
Definition same_fits (w w' : world) : Prop := forall n k x, accepts w' n k x = accepts w n k x.
Lemma addName_obs w n k : ginv w -> ~ In k (n_names (nodes w n)) ->
  exists w', addField w n (FName k) = (w', Ok tt) /\ ginv w' /\ n_names (nodes w' n) = n_names (nodes w n) ++ [k] /\ (forall m, m <> n -> nodes w' m = nodes w m) /\ (forall m j, vals_of w' m j = vals_of w m j) /\ same_fits w w'.
Proof.
  intros G N. assert (G' : ginv (fst (addField w n (FName k)))) by (cbn [addField]; apply addObj_inv; [now apply make_inv|cbn; lia]).
  revert G'. cbn [addField]. unfold addObj. cbn [fobjs makeField nodes f_name f_node f_type f_vals newField]. rewrite upd_same. cbn [f_name f_node f_type f_vals newField]. rewrite (proj2 (has_out _ _) N). cbn [fst]. intros G'.
  eexists. split; [reflexivity|]. split; [exact G'|]. cbn [nodes with_field with_node makeField fobjs]. split; [now rewrite upd_same|]. split; [intros m M; now rewrite upd_other|].
  assert (Lo : forall m j, In j (n_names (nodes w m)) -> exists i, n_attr (nodes w m) j = Some i /\ i <> nextf w) by (intros m j J; destruct (proj2 (proj1 G m) j J) as (i & A & B & _); exists i; split; [trivial|lia]).
  split.
  - intros m j. unfold vals_of. cbn [nodes with_field with_node makeField fobjs]. destruct (Nat.eq_dec m n) as [->|M].
    + rewrite upd_same. cbn [n_names n_attr]. destruct (has (n_names (nodes w n) ++ [k]) j) eqn:H.
      * apply has_in, in_app_or in H. destruct H as [H|[<-|[]]].
        -- rewrite upds_other by congruence. rewrite (proj2 (has_in _ _) H). destruct (Lo n j H) as (i & -> & I). now rewrite !upd_other.
        -- rewrite upds_same, (proj2 (has_out _ _) N), upd_same. reflexivity.
      * apply has_out in H. rewrite (proj2 (has_out (n_names (nodes w n)) j)); trivial. intros X. apply H, in_or_app. now left.
    + rewrite !upd_other by trivial. destruct (has (n_names (nodes w m)) j) eqn:H; trivial. apply has_in in H. destruct (Lo m j H) as (i & -> & I). now rewrite !upd_other.
  - intros m j x. unfold accepts. cbn [nodes with_field with_node makeField fobjs]. destruct (Nat.eq_dec m n) as [->|M].
    + rewrite upd_same. cbn [n_names n_attr]. destruct (has (n_names (nodes w n) ++ [k]) j) eqn:H.
      * apply has_in, in_app_or in H. destruct H as [H|[<-|[]]].
        -- rewrite upds_other by congruence. rewrite (proj2 (has_in _ _) H). destruct (Lo n j H) as (i & -> & I). now rewrite !upd_other.
        -- rewrite upds_same, (proj2 (has_out _ _) N), upd_same. reflexivity.
      * apply has_out in H. rewrite (proj2 (has_out (n_names (nodes w n)) j)); trivial. intros X. apply H, in_or_app. now left.
    + rewrite !upd_other by trivial. destruct (has (n_names (nodes w m)) j) eqn:H; trivial. apply has_in in H. destruct (Lo m j H) as (i & -> & I). now rewrite !upd_other.
Qed.
Lemma has_app (a b : list str) k : has (a ++ b) k = has a k || has b k. Proof. apply existsb_app. Qed.
Lemma addMissing_obs n cols : NoDup cols -> forall w, ginv w ->
  exists w', addMissing w n cols = (w', Ok tt) /\ ginv w' /\ n_names (nodes w' n) = with_cols cols (n_names (nodes w n)) /\ (forall m, m <> n -> nodes w' m = nodes w m) /\ (forall m j, vals_of w' m j = vals_of w m j) /\ same_fits w w'.
Proof.
  induction cols as [|k r IH]; intros D w G; cbn [addMissing].
  - exists w. split; [reflexivity|]. split; [trivial|]. unfold with_cols. cbn. rewrite app_nil_r. repeat split.
  - inversion D as [|? ? X Y]; subst. unfold with_cols. cbn [filter]. destruct (has (n_names (nodes w n)) k) eqn:H; cbn [negb].
    + apply (IH Y w G).
    + apply has_out in H. destruct (addName_obs w n k G H) as (w1 & E & G1 & N1 & O1 & V1 & T1). rewrite E. destruct (IH Y w1 G1) as (w2 & E2 & G2 & N2 & O2 & V2 & T2). exists w2. split; [exact E2|]. split; [exact G2|]. split; [|split; [|split]].
      * rewrite N2, N1. unfold with_cols. rewrite <- app_assoc. cbn [app]. do 2 f_equal. apply filter_ext_in. intros j J. rewrite has_app. cbn. rewrite (eqb_neq j k) by congruence. now rewrite !orb_false_r.
      * intros m M. rewrite O2, O1; trivial.
      * intros m j. now rewrite V2, V1.
      * intros m j x. now rewrite T2, T1.
Qed.
Lemma putCell_obs w n k s sc r q : ginv w -> In k (n_names (nodes w n)) -> plain r q -> acceptsCell w n k q ->
  exists w', putCell w n k s sc r = (w', Ok tt) /\ ginv w' /\ nodes w' = nodes w /\ vals_of w' n k = put sc (stored s q) (vals_of w n k) /\ (forall m j, (m, j) <> (n, k) -> vals_of w' m j = vals_of w m j) /\ same_fits w w'.
Proof.
  intros G I P (Ax & Ae). destruct (proj2 (proj1 G n) k I) as (i & A & _ & Nm & Nd). unfold putCell. rewrite A. pose proof (proj2 G i) as R. unfold accepts in Ax, Ae. rewrite (proj2 (has_in _ _) I), A in Ax.
  assert (Fe : forallb (t_ok (f_type (fobjs w i))) (snd q) = true). { apply forallb_forall. intros e He. specialize (Ae e He). now rewrite (proj2 (has_in _ _) I), A in Ae. }
  destruct (setitem_ok _ (fun _ => 0) (fun _ => 0) _ s r q R P Ax Fe) as (f1 & E1 & V1 & R1). rewrite E1.
  assert (F : exists f2, (if sc then let (f', r') := setCurr (f_type (fobjs w i)) f1 (CKey (KSource s)) in (with_field w i (set_vals (fobjs w i) f'), r') else (with_field w i (set_vals (fobjs w i) f1), Ok tt)) = (with_field w i (set_vals (fobjs w i) f2), Ok tt) /\ vals f2 = put sc (stored s q) (vals (f_vals (fobjs w i))) /\ FieldProps.reachable (f_type (fobjs w i)) int_src f2).
  { destruct sc.
    - destruct (setCurr_ok _ f1 s (stored s q) R1) as (f2 & E2 & V2 & R2); [rewrite V1; apply put_in|reflexivity|]. rewrite E2. exists f2. split; [reflexivity|]. split; [|exact R2]. rewrite V2, V1, except_put by reflexivity. reflexivity.
    - exists f1. auto. }
  destruct F as (f2 & E2 & V2 & R2). rewrite E2. eexists. split; [reflexivity|]. split; [now apply set_inv|]. split; [reflexivity|]. split; [|split].
  - unfold vals_of. cbn [nodes with_field fobjs]. rewrite (proj2 (has_in _ _) I), A, upd_same. exact V2.
  - intros m j N. unfold vals_of. cbn [nodes with_field fobjs]. destruct (has (n_names (nodes w m)) j) eqn:H; trivial. apply has_in in H. destruct (proj2 (proj1 G m) j H) as (i' & A' & _ & Nm' & Nd'). rewrite A'. rewrite upd_other; trivial. intros ->. apply N. congruence.
  - intros m j x. unfold accepts. cbn [nodes with_field fobjs]. destruct (has (n_names (nodes w m)) j); trivial. destruct (n_attr (nodes w m) j) as [i'|]; trivial. unfold upd. destruct (Nat.eqb_spec i' i) as [->|]; reflexivity.
Qed.
(** ** Rows *)
Definition two_of (c : @conv V) : bool := match c with CTwo _ => true | _ => false end.
Lemma twoargs_ok convs : (forall cv, In cv convs -> exists row v q, gives cv row v q) -> twoargs convs = Ok (map (fun c => Some (two_of c)) convs).
Proof.
  induction convs as [|c r IH]; intros H; cbn; trivial. destruct (H c (or_introl eq_refl)) as (row & v & q & Gv). rewrite IH by (intros cv X; apply H; now right). destruct c; cbn in *; try contradiction; reflexivity.
Qed.
Lemma gives_call c row v q : gives c row v q -> exists r, call c (two_of c) v row = Ok r /\ plain r q.
Proof. destruct c; cbn; try contradiction; auto. Qed.
Lemma cells_obs n s sc errs convs row k (out : nat -> cell) l : forall w c, ginv w -> NoDup (map snd l) ->
  (forall j x name, nth_error l j = Some (x, name) -> In name (n_names (nodes w n)) /\ exists cv, nth_error convs (c + j) = Some cv /\ gives cv row (given errs (c + j) k x) (out (c + j)) /\ acceptsCell w n name (out (c + j))) ->
  exists w', cells w n s sc errs convs (map (fun c => Some (two_of c)) convs) row k c l = (w', Ok tt) /\ ginv w' /\ nodes w' = nodes w /\
    (forall j x name, nth_error l j = Some (x, name) -> vals_of w' n name = put sc (stored s (out (c + j))) (vals_of w n name)) /\
    (forall m name, ~ (m = n /\ In name (map snd l)) -> vals_of w' m name = vals_of w m name) /\ same_fits w w'.
Proof.
  induction l as [|[x name] r IH]; intros w c G D H; cbn [cells].
  - exists w. split; [reflexivity|]. split; [exact G|]. split; [reflexivity|]. split; [intros [|j]; discriminate|]. split; [reflexivity|]. intros m j y. reflexivity.
  - cbn in D. inversion D as [|? ? X Y]; subst. destruct (H 0 x name eq_refl) as (I & cv & Ec & Gv & Ac). rewrite Nat.add_0_r in *. rewrite (map_nth_error _ _ _ Ec), Ec.
    replace (match Some (two_of cv) with Some true => true | _ => false end) with (two_of cv) by (destruct (two_of cv); reflexivity). change (given errs c k x) with (cellInput errs c k x) in Gv. destruct (gives_call _ _ _ _ Gv) as (rr & Er & Pr). rewrite Er.
    destruct (putCell_obs w n name s sc rr _ G I Pr Ac) as (w1 & E1 & G1 & N1 & V1 & O1 & T1). rewrite E1.
    destruct (IH w1 (S c) G1 Y) as (w2 & E2 & G2 & N2 & V2 & O2 & T2).
    { intros j x' name' J. destruct (H (S j) x' name' J) as (I' & cv' & Ec' & Gv' & Ac'). rewrite Nat.add_succ_r in *. rewrite N1. split; [trivial|]. exists cv'. split; [exact Ec'|]. split; [exact Gv'|]. destruct Ac' as (A1 & A2). split; [now rewrite T1|intros e He; rewrite T1; auto]. }
    exists w2. split; [exact E2|]. split; [exact G2|]. split; [congruence|]. split; [|split].
    + intros [|j] x' name' J; cbn in J.
      * injection J as <- <-. rewrite Nat.add_0_r, O2 by tauto. exact V1.
      * rewrite (V2 j x' name' J), Nat.add_succ_r. f_equal. apply O1. intros [= ->]. apply X. apply nth_error_In in J. now apply (in_map snd) in J.
    + intros m name' Nm. rewrite O2 by (cbn in Nm; tauto). apply O1. intros [= -> ->]. apply Nm. split; [trivial|now left].
    + intros m j y. now rewrite T2, T1.
Qed.
Lemma nth_combine {A B} (a : list A) (b : list B) : List.length a = List.length b -> forall j x y, nth_error (combine a b) j = Some (x, y) <-> nth_error a j = Some x /\ nth_error b j = Some y.
Proof.
  revert b. induction a as [|u a IH]; intros [|v b] L; try discriminate; intros [|j] x y; cbn; try (split; [discriminate|intros (? & ?); discriminate]).
  - split; [intros [= <- <-]; auto|intros ([= <-] & [= <-]); trivial].
  - apply IH. now injection L.
Qed.
Lemma combine_snd {A B} (a : list A) (b : list B) : List.length a = List.length b -> map snd (combine a b) = b.
Proof. revert b. induction a as [|u a IH]; intros [|v b] L; try discriminate; cbn; trivial. f_equal. apply IH. now injection L. Qed.
Lemma with_cols_in cols l k : In k (with_cols cols l) <-> In k l \/ In k cols.
Proof.
  unfold with_cols. rewrite in_app_iff, filter_In. split; [tauto|]. intros [H|H]; [tauto|]. destruct (has l k) eqn:E; [left; now apply has_in|right; auto].
Qed.
Lemma with_cols_twice cols l : with_cols cols (with_cols cols l) = with_cols cols l.
Proof.
  unfold with_cols at 1. replace (filter _ cols) with (@nil str); [apply app_nil_r|]. symmetry.
  assert (X : forall c, incl c cols -> filter (fun k => negb (has (with_cols cols l) k)) c = []).
  { induction c as [|a c IH]; intros I; cbn; trivial. replace (has (with_cols cols l) a) with true; [cbn; apply IH; intros z Z; apply I; now right|]. symmetry. apply has_in, with_cols_in. right. apply I. now left. }
  apply X. apply incl_refl.
Qed.
(** one row *)
Definition row_ok (w : world) (cols : list str) convs errs (k : nat) (out : nat -> cell) (row : list V) (n : nat) : Prop :=
  List.length row = List.length cols /\
  forall c x name, nth_error row c = Some x -> nth_error cols c = Some name -> exists cv, nth_error convs c = Some cv /\ gives cv row (given errs c k x) (out c) /\ acceptsCell w n name (out c).
(** node n has the row *)
Definition has_row (w w' : world) (s : nat) (sc : bool) (cols : list str) (out : nat -> cell) (n : nat) : Prop :=
  n_names (nodes w' n) = with_cols cols (n_names (nodes w n)) /\
  (forall c name, nth_error cols c = Some name -> vals_of w' n name = put sc (stored s (out c)) (vals_of w n name)) /\
  (forall name, ~ In name cols -> vals_of w' n name = vals_of w n name).
(** node n is as before *)
Definition as_before (w w' : world) (n : nat) : Prop := n_names (nodes w' n) = n_names (nodes w n) /\ forall name, vals_of w' n name = vals_of w n name.
Lemma doRow_obs w n s sc errs convs cols k out row : ginv w -> NoDup cols -> row_ok w cols convs errs k out row n ->
  exists w', doRow w n s sc errs convs (map (fun c => Some (two_of c)) convs) cols k row = (w', Ok tt) /\ ginv w' /\ has_row w w' s sc cols out n /\ (forall m, m <> n -> as_before w w' m) /\ same_fits w w'.
Proof.
  intros G D (Lr & H). unfold doRow. destruct (addMissing_obs n cols D w G) as (w1 & E1 & G1 & N1 & O1 & V1 & T1). rewrite E1.
  destruct (cells_obs n s sc errs convs row k out (combine row cols) w1 0 G1) as (w2 & E2 & G2 & N2 & V2 & O2 & T2).
  { now rewrite combine_snd. }
  { intros j x name J. apply nth_combine in J; trivial. destruct J as (J1 & J2). split; [rewrite N1; apply with_cols_in; right; now apply nth_error_In in J2|]. destruct (H j x name J1 J2) as (cv & A & B & C1 & C2). exists cv. cbn. split; [exact A|]. split; [exact B|]. split; [now rewrite T1|intros e He; rewrite T1; auto]. }
  exists w2. split; [exact E2|]. split; [exact G2|]. rewrite combine_snd in O2 by trivial. split; [|split].
  - split; [now rewrite N2|]. split.
    + intros c name C. assert (X : exists x, nth_error row c = Some x). { destruct (nth_error row c) eqn:Z; eauto. apply nth_error_None in Z. assert (c < List.length cols) by (apply nth_error_Some; congruence). lia. }
      destruct X as (x & X). rewrite (V2 c x name) by (apply nth_combine; auto). now rewrite V1.
    + intros name Nn. rewrite O2 by tauto. apply V1.
  - intros m M. split; [rewrite N2, O1; trivial|]. intros name. rewrite O2 by tauto. apply V1.
  - intros m j x. now rewrite T2, T1.
Qed.
(** ** The loop: which node each row goes to *)
Fixpoint picks (m : option (@matcher V)) (rows : list (list V)) (ns : list nat) (last : option nat) : option (list nat) :=
  match rows with [] => Some [] | a :: r => match pick m a ns last with (ns', Ok n) => option_map (cons n) (picks m r ns' (Some n)) | _ => None end end.
(** the last row that goes to the node *)
Fixpoint last_at (n : nat) (ts : list nat) (k : nat) : option nat :=
  match ts with [] => None | t :: r => match last_at n r (S k) with Some j => Some j | None => if Nat.eqb t n then Some k else None end end.
Lemma has_row_again w w1 w2 s sc cols out out' n : has_row w w1 s sc cols out n -> has_row w1 w2 s sc cols out' n -> has_row w w2 s sc cols out' n.
Proof.
  intros (A & B & C) (A' & B' & C'). split; [rewrite A', A; apply with_cols_twice|]. split.
  - intros c name E. rewrite (B' c name E), (B c name E). now apply put_put.
  - intros name N. now rewrite C', C.
Qed.
Lemma has_row_before w w1 w2 s sc cols out n : as_before w w1 n -> has_row w1 w2 s sc cols out n -> has_row w w2 s sc cols out n.
Proof. intros (A & B) (A' & B' & C'). split; [now rewrite A', A|]. split; [intros c name E; now rewrite (B' c name E), B|intros name N; now rewrite C', B]. Qed.
Lemma has_row_after w w1 w2 s sc cols out n : has_row w w1 s sc cols out n -> as_before w1 w2 n -> has_row w w2 s sc cols out n.
Proof. intros (A & B & C) (A' & B'). split; [now rewrite A', A|]. split; [intros c name E; now rewrite B', (B c name E)|intros name N; now rewrite B', C]. Qed.
Lemma before_trans w w1 w2 n : as_before w w1 n -> as_before w1 w2 n -> as_before w w2 n.
Proof. intros (A & B) (A' & B'). split; [congruence|]. intros name. now rewrite B'. Qed.
Lemma loop_obs s sc errs convs m cols (out : nat -> nat -> cell) : NoDup cols -> forall rows w ns last k ts, ginv w -> picks m rows ns last = Some ts ->
  (forall j row n, nth_error rows j = Some row -> nth_error ts j = Some n -> row_ok w cols convs errs (k + j) (out (k + j)) row n) ->
  exists w', loop w ns last s sc errs convs (map (fun c => Some (two_of c)) convs) m cols k rows = (w', Ok tt) /\ ginv w' /\
    (forall n, match last_at n ts k with Some j => has_row w w' s sc cols (out j) n | None => as_before w w' n end).
Proof.
  intros D. induction rows as [|a r IH]; intros w ns last k ts G P H; cbn [picks] in P; cbn [loop].
  - injection P as <-. exists w. split; [reflexivity|]. split; [exact G|]. intros n. cbn. split; reflexivity.
  - destruct (pick m a ns last) as [ns' [n|e|]]; try discriminate. destruct (picks m r ns' (Some n)) as [ts'|] eqn:P'; [|discriminate]. injection P as <-.
    assert (H0 : row_ok w cols convs errs k (out k) a n) by (rewrite <- (Nat.add_0_r k); now apply H).
    destruct (doRow_obs w n s sc errs convs cols k (out k) a G D H0) as (w1 & E1 & G1 & R1 & O1 & T1). rewrite E1.
    destruct (IH w1 ns' (Some n) (S k) ts' G1 P') as (w2 & E2 & G2 & L2).
    { intros j row n' J1 J2. destruct (H (S j) row n' J1 J2) as (Lr & X). rewrite Nat.add_succ_r in X. split; trivial. intros c x name C1 C2. destruct (X c x name C1 C2) as (cv & A & B & C3 & C4). exists cv. split; [exact A|]. split; [exact B|]. split; [rewrite T1; exact C3|]. intros e He. rewrite T1. auto. }
    exists w2. split; [exact E2|]. split; [exact G2|]. intros n'. cbn [last_at]. specialize (L2 n'). destruct (last_at n' ts' (S k)) as [j|]; destruct (Nat.eqb_spec n n') as [<-|Ne].
    + eapply has_row_again; eauto.
    + eapply has_row_before; eauto.
    + eapply has_row_after; eauto.
    + eapply before_trans; eauto.
Qed.

(** ** Theorems *)
(** the dictionary gives column number c the c-th of the names *)
Definition names_cols (fields : list (nat * str)) (cols : list str) : Prop := List.length fields = List.length cols /\ forall c name, nth_error cols c = Some name -> getf fields c = Some name.
Lemma all_some_cols fields cols : names_cols fields cols -> all_some (map (getf fields) (seq 0 (List.length cols))) = Some cols.
Proof.
  intros (_ & H). assert (X : forall l i, (forall c name, nth_error l c = Some name -> getf fields (i + c) = Some name) -> all_some (map (getf fields) (seq i (List.length l))) = Some l).
  { induction l as [|a l IH]; intros i Hl; cbn; trivial. pose proof (Hl 0 a eq_refl) as Ha. rewrite Nat.add_0_r in Ha. rewrite Ha. rewrite IH; [reflexivity|]. intros c name C. rewrite <- (Hl (S c) name C). f_equal. lia. }
  apply X. exact H.
Qed.
Lemma picks_length m rows : forall ns last ts, picks m rows ns last = Some ts -> List.length ts = List.length rows.
Proof.
  induction rows as [|a r IH]; intros ns last ts; cbn; [intros [= <-]; trivial|]. destruct (pick m a ns last) as [ns' [n|e|]]; try discriminate. destruct (picks m r ns' (Some n)) as [ts'|] eqn:P; [|discriminate]. intros [= <-]. cbn. f_equal. eauto.
Qed.
Lemma array_obs w rows s fields ns cols errs convs sc out m ts : ginv w -> rows <> [] -> NoDup cols -> names_cols fields cols -> List.length convs = List.length cols ->
  match m with None => List.length rows = List.length ns | Some _ => True end -> picks m rows ns None = Some ts ->
  (forall k row n, nth_error rows k = Some row -> nth_error ts k = Some n -> row_ok w cols convs errs k (out k) row n) ->
  exists w', arrayToNodes w rows s fields ns errs m convs sc = (w', Ok tt) /\ ginv w' /\ (forall n, match last_at n ts 0 with Some j => has_row w w' s sc cols (out j) n | None => as_before w w' n end).
Proof.
  intros G Ne D F Lc Lm P H. pose proof (picks_length _ _ _ _ _ P) as Lt. destruct rows as [|a r]; [congruence|]. destruct ts as [|t ts']; [discriminate|].
  destruct (H 0 a t eq_refl eq_refl) as (La & Hc). unfold arrayToNodes. rewrite (proj1 F), La, Nat.eqb_refl. cbn [negb]. rewrite (all_some_cols fields cols F). rewrite twoargs_ok.
  2:{ intros cv I. apply In_nth_error in I. destruct I as (c & I). assert (Hl : c < List.length cols) by (rewrite <- Lc; apply nth_error_Some; congruence).
      destruct (nth_error cols c) as [name|] eqn:C; [|apply nth_error_None in C; lia]. destruct (nth_error a c) as [x|] eqn:X; [|apply nth_error_None in X; lia]. destruct (Hc c x name X C) as (cv' & E & Gv & _). assert (cv' = cv) as -> by congruence. eauto. }
  assert (T : match m with None => negb (Nat.eqb (List.length (a :: r)) (List.length ns)) | Some _ => false end = false) by (destruct m; trivial; rewrite Lm, Nat.eqb_refl; reflexivity). rewrite T.
  destruct (loop_obs s sc errs convs m cols out D (a :: r) w ns None 0 (t :: ts') G P H) as (w' & E & G' & L). eauto.
Qed.
Lemma picks_none rows : forall ns last, List.length rows = List.length ns -> picks None rows ns last = Some ns.
Proof. induction rows as [|a r IH]; intros [|n ns] last L; try discriminate; cbn; trivial. rewrite IH by (now injection L). reflexivity. Qed.
Lemma last_at_out n ts : forall k, ~ In n ts -> last_at n ts k = None.
Proof. induction ts as [|t r IH]; intros k N; cbn; trivial. cbn in N. rewrite IH by tauto. destruct (Nat.eqb_spec t n); tauto. Qed.
Lemma last_at_nth ts : NoDup ts -> forall n k i, nth_error ts i = Some n -> last_at n ts k = Some (k + i).
Proof.
  induction ts as [|t r IH]; intros D n k [|i] E; try discriminate; cbn in *; inversion D as [|? ? X Y]; subst.
  - injection E as ->. rewrite last_at_out by trivial. rewrite Nat.eqb_refl. f_equal. lia.
  - rewrite (IH Y n (S k) i E). f_equal. lia.
Qed.
Lemma read_front w n name v l : ginv w -> vals_of w n name = v :: l -> FnModel.getitem w n (NStr name) = Ok (Value (v_val v)).
Proof.
  intros G E. unfold vals_of in E. destruct (has (n_names (nodes w n)) name) eqn:H; [|discriminate]. unfold FnModel.getitem, parse_key. rewrite H. cbn [bindr]. destruct (n_attr (nodes w n) name) as [i|]; [|discriminate]. unfold getCurr. now rewrite E.
Qed.
(** C130: without a matcher row k is written to node k: the missing columns are added after its names, each column's Field has the (converted) value and errors
    for the source in front (with setcurr=False in its place, or at the end), its values of other sources, its other Fields and all other nodes stay; node[column] is then that value *)
Theorem C130_rows : forall w rows s fields ns cols errs convs sc out, reach int_src w -> rows <> [] -> NoDup ns -> NoDup cols -> names_cols fields cols -> List.length convs = List.length cols -> List.length rows = List.length ns ->
  (forall k row n, nth_error rows k = Some row -> nth_error ns k = Some n -> row_ok w cols convs errs k (out k) row n) ->
  exists w', arrayToNodes w rows s fields ns errs None convs sc = (w', Ok tt) /\
    (forall k n, nth_error ns k = Some n -> has_row w w' s sc cols (out k) n) /\ (forall n, ~ In n ns -> as_before w w' n) /\
    (sc = true -> forall k n c name, nth_error ns k = Some n -> nth_error cols c = Some name -> FnModel.getitem w' n (NStr name) = Ok (Value (fst (out k c)))).
Proof.
  intros w rows s fields ns cols errs convs sc out R Ne Dn Dc F Lc Lr H. apply reach_inv in R. destruct (array_obs w rows s fields ns cols errs convs sc out None ns R Ne Dc F Lc Lr (picks_none _ _ _ Lr) H) as (w' & E & G & L).
  assert (A : forall k n, nth_error ns k = Some n -> has_row w w' s sc cols (out k) n) by (intros k n K; specialize (L n); now rewrite (last_at_nth ns Dn n 0 k K) in L).
  exists w'. split; [exact E|]. split; [exact A|]. split; [intros n N; specialize (L n); now rewrite last_at_out in L|]. intros -> k n c name K C. destruct (A k n K) as (_ & B & _). eapply (read_front w' n name (stored s (out k c))); [exact G|]. now apply B.
Qed.
(** each row matches some node that is left, and goes to the first such *)
Inductive matched (m : @matcher V) : list (list V) -> list nat -> list nat -> Prop :=
| m_nil ns : matched m [] ns []
| m_cons a r n before after ts : (forall x, In x before -> m a x = false) -> m a n = true -> matched m r (before ++ after) ts -> matched m (a :: r) (before ++ n :: after) (n :: ts).
Lemma find_first_app (f : nat -> bool) before n after : (forall x, In x before -> f x = false) -> f n = true -> find_first f (before ++ n :: after) = Some (List.length before).
Proof. intros H E. induction before as [|b r IH]; cbn; [now rewrite E|]. rewrite (H b) by (now left). rewrite IH by (intros x X; apply H; now right). reflexivity. Qed.
Lemma matched_picks m rows ns ts : matched m rows ns ts -> forall last, picks (Some m) rows ns last = Some ts.
Proof.
  induction 1 as [ns|a r n before after ts B E M IH]; intros last; cbn [picks]; trivial. unfold pick. rewrite (find_first_app (m a) before n after B E). rewrite nth_error_app2, Nat.sub_diag by lia. cbn [nth_error].
  replace (remove_at (List.length before) (before ++ n :: after)) with (before ++ after); [now rewrite IH|]. unfold remove_at. rewrite firstn_app, Nat.sub_diag, firstn_all, app_nil_r. f_equal. rewrite skipn_app. rewrite skipn_all2 by lia. replace (S (List.length before) - List.length before) with 1 by lia. reflexivity.
Qed.
Lemma matched_nodup m rows ns ts : matched m rows ns ts -> NoDup ns -> NoDup ts /\ incl ts ns.
Proof.
  induction 1 as [ns|a r n before after ts B E M IH]; intros D; [split; [constructor|intros x []]|]. apply NoDup_remove in D. destruct D as (D & N). destruct (IH D) as (D' & I). split; [constructor; auto|]. intros x [<-|X]; [apply in_or_app; right; now left|]. apply I in X. apply in_app_or in X. apply in_or_app. destruct X; [now left|right; now right].
Qed.
Theorem C130_matched : forall w rows s fields ns ts cols errs convs sc out m, reach int_src w -> rows <> [] -> NoDup ns -> NoDup cols -> names_cols fields cols -> List.length convs = List.length cols -> matched m rows ns ts ->
  (forall k row n, nth_error rows k = Some row -> nth_error ts k = Some n -> row_ok w cols convs errs k (out k) row n) ->
  exists w', arrayToNodes w rows s fields ns errs (Some m) convs sc = (w', Ok tt) /\ (forall k n, nth_error ts k = Some n -> has_row w w' s sc cols (out k) n) /\ (forall n, ~ In n ts -> as_before w w' n).
Proof.
  intros w rows s fields ns ts cols errs convs sc out m R Ne Dn Dc F Lc M H. apply reach_inv in R. destruct (array_obs w rows s fields ns cols errs convs sc out (Some m) ts R Ne Dc F Lc I (matched_picks _ _ _ _ M None) H) as (w' & E & G & L).
  destruct (matched_nodup _ _ _ _ M Dn) as (Dt & _). exists w'. split; [exact E|]. split; [intros k n K; specialize (L n); now rewrite (last_at_nth ts Dt n 0 k K) in L|]. intros n N. specialize (L n). now rewrite last_at_out in L.
Qed.
(** failures that change nothing: no rows, names that are not those of the columns, another number of nodes, a converter that cannot be used *)
Theorem C130_failed : forall (w : world) (rows : list (list V)) s fields ns errs convs sc,
  (forall m, arrayToNodes w [] s fields ns errs m convs sc = (w, Raise IndexError)) /\
  (forall m a r, rows = a :: r -> List.length a <> List.length fields -> arrayToNodes w rows s fields ns errs m convs sc = (w, Raise ValueError)) /\
  (forall m a r c, rows = a :: r -> c < List.length a -> getf fields c = None -> arrayToNodes w rows s fields ns errs m convs sc = (w, Raise ValueError)) /\
  (rows <> [] -> List.length rows <> List.length ns -> exists e, arrayToNodes w rows s fields ns errs None convs sc = (w, Raise e)) /\
  (forall m, rows <> [] -> In CNot convs \/ In CWrong convs -> arrayToNodes w rows s fields ns errs m convs sc = (w, Raise ValueError)).
Proof.
  assert (T : forall convs : list (@conv V), (exists two, twoargs convs = Ok two) \/ twoargs convs = Raise ValueError).
  { induction convs as [|c r IH]; [left; eexists; reflexivity|]. destruct IH as [(t & IH)|IH]; destruct c; cbn; rewrite ?IH; cbn; eauto. }
  assert (T' : forall convs : list (@conv V), In CNot convs \/ In CWrong convs -> twoargs convs = Raise ValueError).
  { induction convs as [|c r IH]; cbn; [tauto|]. intros H. destruct c; cbn; try reflexivity; rewrite IH; trivial; destruct H as [[H|H]|[H|H]]; try discriminate H; tauto. }
  intros w rows s fields ns errs convs sc. split; [reflexivity|]. split; [|split; [|split]].
  - intros m a r -> N. unfold arrayToNodes. destruct (Nat.eqb_spec (List.length a) (List.length fields)); [contradiction|reflexivity].
  - intros m a r c -> C E. unfold arrayToNodes. destruct (negb _); [reflexivity|]. replace (all_some (map (getf fields) (seq 0 (List.length a)))) with (@None (list str)); [reflexivity|]. symmetry.
    assert (X : forall l, In c l -> all_some (map (getf fields) l) = None). { induction l as [|b l IH]; cbn; [tauto|]. intros [->|J]; [now rewrite E|]. rewrite IH by trivial. now destruct (getf fields b). }
    apply X, in_seq. lia.
  - intros Ne N. destruct rows as [|a r]; [congruence|]. unfold arrayToNodes. destruct (negb _) ; [eauto|]. destruct (all_some _); [|eauto]. destruct (T convs) as [(t & ->)| ->]; [|eauto]. destruct (Nat.eqb_spec (List.length (a :: r)) (List.length ns)); [contradiction|]. cbn. eauto.
  - intros m Ne H. destruct rows as [|a r]; [congruence|]. unfold arrayToNodes. destruct (negb _) ; [trivial|]. destruct (all_some _); [|trivial]. now rewrite T'.
Qed.
End Proofs.
