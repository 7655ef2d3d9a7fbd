(** * AnCatalog: C130, catalogs from arrays, filters, and what does not hold *)
From Coq Require Import List ZArith Lia Bool Ascii String.
From Verif Require Import PyBase PubModel IoColumns FieldModel FieldProofs FieldProps FnModel FnProof AnModel AnProof.
Import ListNotations.

Section Proofs.
Context {V : Type}.
Variable int_src : Z -> nat.
Notation world := (@world V).
Notation ginv := (FnProof.ginv int_src).

(** ** Specification *)
(** the rows that the filter accepts, with their numbers *)
Definition accepted (flt : list V -> bool) (k : nat) (rows : list (list V)) : list (nat * list V) := filter (fun p => flt (snd p)) (combine (seq k (List.length rows)) rows).
(** there are no rows, or the last one is accepted *)
Definition ends_accepted (flt : list V -> bool) (rows : list (list V)) : Prop := match rev rows with [] => True | a :: _ => flt a = true end.
(** the values of the name field: a single default value is dropped, the name is added for the source *)
Definition no_default (l : list (@fval V)) : list (@fval V) := match l with [v] => if Nat.eqb (v_src v) 0 then [] else l | _ => l end.
Definition has_name (w w' : world) (s : nat) (name : str) (x : V) (n : nat) : Prop :=
  n_names (nodes w' n) = with_cols [name] (n_names (nodes w n)) /\ vals_of w' n name = put false (stored s (x, [])) (no_default (vals_of w n name)) /\ (forall k, k <> name -> vals_of w' n k = vals_of w n k).

(** ** Filters *)
Lemma accepted_cons flt k a r : accepted flt k (a :: r) = if flt a then (k, a) :: accepted flt (S k) r else accepted flt (S k) r.
Proof. reflexivity. Qed.
Lemma ends_tail flt a r : ends_accepted flt (a :: r) -> ends_accepted flt r /\ (r = [] -> flt a = true).
Proof.
  unfold ends_accepted. cbn. destruct (rev r) as [|b l] eqn:E; cbn; [intros F; split; auto|]. intros F. split; [exact F|]. intros ->. discriminate.
Qed.
Lemma accepted_some flt r : ends_accepted flt r -> r <> [] -> forall k, accepted flt k r <> [].
Proof.
  induction r as [|a r IH]; intros E N k; [congruence|]. apply ends_tail in E. destruct E as (E & L). rewrite accepted_cons. destruct r as [|b r']; [rewrite L by trivial; discriminate|]. destruct (flt a); [discriminate|]. apply IH; [trivial|discriminate].
Qed.
Lemma find_none (f : nat -> bool) l : (forall x, f x = false) -> find_first f l = None.
Proof. intros H. induction l as [|a r IH]; cbn; trivial. now rewrite H, IH. Qed.
Lemma filter_picks flt rows : forall ns last k, NoDup ns -> ends_accepted flt rows -> List.length (accepted flt k rows) = List.length ns ->
  exists ts, picks (Some (fun a (_ : nat) => flt a)) rows ns last = Some ts /\ incl ts ns /\
    (forall i n j row, nth_error ns i = Some n -> nth_error (accepted flt k rows) i = Some (j, row) -> last_at n ts k = Some j).
Proof.
  induction rows as [|a r IH]; intros ns last k D E L.
  - cbn in L. destruct ns; [|discriminate]. exists []. split; [reflexivity|]. split; [intros x []|]. intros [|i]; discriminate.
  - pose proof (ends_tail _ _ _ E) as (E' & La). rewrite accepted_cons in *. cbn [picks]. unfold pick. destruct (flt a) eqn:F.
    + destruct ns as [|n ns]; [discriminate|]. cbn [find_first nth_error]. inversion D as [|? ? X Y]; subst. replace (remove_at 0 (n :: ns)) with ns by reflexivity.
      destruct (IH ns (Some n) (S k) Y E') as (ts & P & I & A); [now injection L|]. rewrite P. exists (n :: ts). split; [reflexivity|]. split; [intros x [<-|Z]; [now left|right; auto]|].
      intros [|i] n' j row N J; cbn in N, J.
      * injection N as <-. injection J as <- <-. cbn [last_at]. rewrite last_at_out by auto. now rewrite Nat.eqb_refl.
      * cbn [last_at]. now rewrite (A i n' j row N J).
    + rewrite find_none by trivial. assert (Rn : r <> []) by (intros ->; specialize (La eq_refl); congruence). assert (Nn : ns <> []). { intros ->. apply (accepted_some flt r E' Rn (S k)). now destruct (accepted flt (S k) r). }
      destruct (rev ns) as [|n l] eqn:R; [exfalso; apply Nn; rewrite <- (rev_involutive ns), R; reflexivity|]. destruct (IH ns (Some n) (S k) D E' L) as (ts & P & I & A). rewrite P. exists (n :: ts). split; [reflexivity|]. split.
      * intros x [<-|Z]; [|auto]. apply in_rev. rewrite R. now left.
      * intros i n' j row N J. cbn [last_at]. now rewrite (A i n' j row N J).
Qed.
(** ** Names *)
Lemma delitem_none (ty : @ftype V) f : FieldProps.reachable ty int_src f ->
  let f1 := if Nat.eqb (List.length (vals f)) 1 && match contains f KNone with Ok b => b | _ => false end then fst (delitem f KNone) else f in
  vals f1 = no_default (vals f) /\ FieldProps.reachable ty int_src f1.
Proof.
  intros R f1. split.
  - unfold f1, contains, delitem. cbn [FieldModel.getitem]. unfold get_src, none_src. destruct (vals f) as [|v [|u l]] eqn:E; cbn [List.length Nat.eqb andb]; [exact E| |exact E].
    cbn [find_src]. destruct (Nat.eqb (v_src v) 0) eqn:Q; cbn [option_map fst with_vals vals no_default]; rewrite ?E, ?Q; reflexivity.
  - unfold f1. destruct (_ && _); [|exact R]. exact (freach_step int_src ty f (FDel KNone) I R).
Qed.
Lemma putName_obs w n name s x : ginv w -> accepts w n name x = true ->
  exists w', putName w n name s x = (w', Ok tt) /\ ginv w' /\ has_name w w' s name x n /\ (forall m, m <> n -> as_before w w' m) /\ same_fits w w'.
Proof.
  intros G A. assert (S : exists w1, (if has (n_names (nodes w n)) name then (w, Ok tt) else addField w n (FName name)) = (w1, Ok tt) /\ ginv w1 /\ n_names (nodes w1 n) = with_cols [name] (n_names (nodes w n)) /\ (forall m, m <> n -> nodes w1 m = nodes w m) /\ (forall m j, vals_of w1 m j = vals_of w m j) /\ same_fits w w1).
  { unfold with_cols. cbn [filter]. destruct (has (n_names (nodes w n)) name) eqn:H; cbn [negb].
    - exists w. split; [reflexivity|]. split; [exact G|]. rewrite app_nil_r. repeat split.
    - apply has_out in H. destruct (addName_obs int_src w n name G H) as (w1 & X). exists w1. tauto. }
  destruct S as (w1 & E1 & G1 & N1 & O1 & V1 & T1). unfold putName. rewrite E1. assert (I : In name (n_names (nodes w1 n))) by (rewrite N1; apply with_cols_in; right; now left).
  destruct (proj2 (proj1 G1 n) name I) as (i & At & _ & Nm & Nd). rewrite At. cbn zeta. destruct (delitem_none _ _ (proj2 G1 i)) as (Vd & Rd). set (f1 := if _ && _ then _ else _) in *.
  assert (Ax : t_ok (f_type (fobjs w1 i)) x = true). { rewrite <- (T1 n name x) in A. unfold accepts in A. now rewrite (proj2 (has_in _ _) I), At in A. }
  destruct (setitem_ok int_src _ (fun _ => 0) (fun _ => 0) f1 s (RRaw x) (x, []) Rd (or_introl (conj eq_refl eq_refl)) Ax eq_refl) as (f2 & E2 & V2 & R2). rewrite E2.
  eexists. split; [reflexivity|]. split; [now apply set_inv|].
  assert (Ot : forall m j, (m, j) <> (n, name) -> vals_of (with_field w1 i (set_vals (fobjs w1 i) f2)) m j = vals_of w1 m j).
  { intros m j N. unfold vals_of. cbn [nodes with_field fobjs]. destruct (has (n_names (nodes w1 m)) j) eqn:H; trivial. apply has_in in H. destruct (proj2 (proj1 G1 m) j H) as (i' & A' & _ & Nm' & Nd'). rewrite A'. rewrite upd_other; trivial. intros ->. apply N. congruence. }
  split; [split; [exact N1|split]|split].
  - rewrite <- V1. unfold vals_of. cbn [nodes with_field fobjs]. rewrite (proj2 (has_in _ _) I), At, upd_same. cbn [f_vals set_vals]. rewrite V2, Vd. reflexivity.
  - intros k K. rewrite Ot by congruence. apply V1.
  - intros m M. split; [cbn [nodes with_field]; now rewrite O1|]. intros k. rewrite Ot by congruence. apply V1.
  - intros m j y. rewrite <- T1. unfold accepts. cbn [nodes with_field fobjs]. destruct (has (n_names (nodes w1 m)) j); trivial. destruct (n_attr (nodes w1 m) j) as [i'|]; trivial. unfold upd. destruct (Nat.eqb_spec i' i) as [->|]; reflexivity.
Qed.
Definition named (w w' : world) (s : nat) (name : option (str * (nat -> V))) (n k : nat) : Prop := match name with Some (nm, f) => has_name w w' s nm (f k) n | None => as_before w w' n end.
Lemma as_before_refl w n : as_before (V := V) w w n. Proof. split; reflexivity. Qed.
Lemma has_name_trans w w1 w2 s nm x n : (as_before w w1 n -> has_name w1 w2 s nm x n -> has_name w w2 s nm x n) /\ (has_name w w1 s nm x n -> as_before w1 w2 n -> has_name w w2 s nm x n).
Proof.
  split.
  - intros (A & B) (C & D & E). split; [now rewrite C, A|]. split; [now rewrite D, B|]. intros k K. now rewrite E, B.
  - intros (C & D & E) (A & B). split; [now rewrite A, C|]. split; [now rewrite B, D|]. intros k K. now rewrite B, E.
Qed.
Lemma named_trans w w1 w2 s name n k : (as_before w w1 n -> named w1 w2 s name n k -> named w w2 s name n k) /\ (named w w1 s name n k -> as_before w1 w2 n -> named w w2 s name n k).
Proof. destruct name as [[nm f]|]; cbn; [apply has_name_trans|split; apply before_trans]. Qed.
Lemma makeNodes_obs s name flt rows : forall w next k, ginv w -> (forall n i nm f, name = Some (nm, f) -> accepts w n nm (f i) = true) ->
  exists w', makeNodes w next s name flt k rows = (w', Ok (seq next (List.length (accepted flt k rows)))) /\ ginv w' /\ same_fits w w' /\
    (forall i j row, nth_error (accepted flt k rows) i = Some (j, row) -> named w w' s name (next + i) j) /\
    (forall n, n < next \/ next + List.length (accepted flt k rows) <= n -> as_before w w' n).
Proof.
  induction rows as [|a r IH]; intros w next k G A; cbn [makeNodes].
  - exists w. split; [reflexivity|]. split; [exact G|]. split; [intros n j x; reflexivity|]. split; [intros [|i]; discriminate|]. intros n _. apply as_before_refl.
  - rewrite accepted_cons. destruct (flt a); [|apply IH; trivial].
    assert (S : exists w1, match name with None => (w, Ok tt) | Some (kk, f) => putName w next kk s (f k) end = (w1, Ok tt) /\ ginv w1 /\ named w w1 s name next k /\ (forall m, m <> next -> as_before w w1 m) /\ same_fits w w1).
    { destruct name as [[nm f]|]; [apply putName_obs; trivial; now apply A|]. exists w. split; [reflexivity|]. split; [exact G|]. split; [apply as_before_refl|]. split; [intros; apply as_before_refl|intros n j x; reflexivity]. }
    destruct S as (w1 & E1 & G1 & N1 & O1 & T1). rewrite E1. destruct (IH w1 (S next) (S k) G1) as (w2 & E2 & G2 & T2 & N2 & O2); [intros n i nm f E; rewrite T1; now apply A|]. rewrite E2. exists w2. split; [reflexivity|]. split; [exact G2|]. split; [intros m j x; now rewrite T2, T1|]. split.
    + intros [|i] j row H; cbn in H.
      * injection H as <- <-. rewrite Nat.add_0_r. apply (proj2 (named_trans w w1 w2 s name next k)); [exact N1|apply O2; left; lia].
      * rewrite Nat.add_succ_r. apply (proj1 (named_trans w w1 w2 s name (S (next + i)) j)); [apply O1; lia|]. now apply (N2 i j row).
    + intros n H. cbn [List.length] in H. apply (before_trans w w1 w2); [apply O1; lia|apply O2; lia].
Qed.

(** ** Theorems *)
(** C130: with a filter, when the last row is accepted: the i-th accepted row is written to the i-th node *)
Theorem C130_filter : forall w rows s fields ns cols errs convs sc out flt, reach int_src w -> rows <> [] -> NoDup ns -> NoDup cols -> names_cols fields cols -> List.length convs = List.length cols ->
  List.length (accepted flt 0 rows) = List.length ns -> ends_accepted flt rows ->
  (forall k row n, nth_error rows k = Some row -> In n ns -> row_ok w cols convs errs k (out k) row n) ->
  exists w', arrayToNodes w rows s fields ns errs (Some (fun a _ => flt a)) convs sc = (w', Ok tt) /\
    (forall i n k row, nth_error ns i = Some n -> nth_error (accepted flt 0 rows) i = Some (k, row) -> has_row w w' s sc cols (out k) n) /\ (forall n, ~ In n ns -> as_before w w' n).
Proof.
  intros w rows s fields ns cols errs convs sc out flt R Ne Dn Dc F Lc La E H. apply reach_inv in R. destruct (filter_picks flt rows ns None 0 Dn E La) as (ts & P & I & A).
  destruct (array_obs int_src w rows s fields ns cols errs convs sc out (Some (fun a _ => flt a)) ts R Ne Dc F Lc Logic.I P) as (w' & Ew & G & L).
  { intros k row n K N. apply H; trivial. apply I. now apply nth_error_In in N. }
  exists w'. split; [exact Ew|]. split.
  - intros i n k row N K. specialize (L n). now rewrite (A i n k row N K) in L.
  - intros n N. specialize (L n). rewrite last_at_out in L; trivial. intros X. apply N, I, X.
Qed.
(** C130: arrayToCatalog makes one node per accepted row, in order, with the name nameconv(row number) for the source if asked for, and then writes the rows; no other node changes.
    With a filter this holds when the last row is accepted *)
Theorem C130_catalog : forall w fresh rows s fields cols errs convs sc out flt name, reach int_src w -> rows <> [] -> NoDup cols -> names_cols fields cols -> List.length convs = List.length cols ->
  match flt with Some f => ends_accepted f rows | None => True end ->
  (forall n i nm f, name = Some (nm, f) -> accepts w n nm (f i) = true) ->
  (forall k row n, nth_error rows k = Some row -> fresh <= n -> row_ok w cols convs errs k (out k) row n) ->
  let acc := accepted (match flt with Some f => f | None => fun _ => true end) 0 rows in
  exists w1 w', arrayToCatalog w fresh rows s fields errs convs flt name sc = (w', Ok (seq fresh (List.length acc))) /\
    (forall i k row, nth_error acc i = Some (k, row) -> named w w1 s name (fresh + i) k /\ has_row w1 w' s sc cols (out k) (fresh + i)) /\
    (forall n, n < fresh \/ fresh + List.length acc <= n -> as_before w w' n).
Proof.
  intros w fresh rows s fields cols errs convs sc out flt name R Ne Dc F Lc E A H acc. apply reach_inv in R. set (g := match flt with Some f => f | None => fun _ => true end) in *.
  destruct (makeNodes_obs s name g rows w fresh 0 R A) as (w1 & E1 & G1 & T1 & N1 & O1). fold acc in E1, N1, O1. set (ns := seq fresh (List.length acc)) in *.
  assert (H1 : forall k row n, nth_error rows k = Some row -> In n ns -> row_ok w1 cols convs errs k (out k) row n).
  { intros k row n K N. apply in_seq in N. destruct (H k row n K) as (L & X); [lia|]. split; trivial. intros c x nm C1 C2. destruct (X c x nm C1 C2) as (cv & X1 & X2 & X3 & X4). exists cv. split; [exact X1|]. split; [exact X2|]. split; [now rewrite T1|]. intros e He. rewrite T1. auto. }
  assert (Q : forall i, i < List.length acc -> nth_error ns i = Some (fresh + i)). { intros i Hi. unfold ns. rewrite (nth_error_nth' _ 0) by (now rewrite seq_length). now rewrite seq_nth. }
  assert (S : exists w', arrayToNodes w1 rows s fields ns errs (option_map (fun f a (_ : nat) => f a) flt) convs sc = (w', Ok tt) /\ (forall i n k row, nth_error ns i = Some n -> nth_error acc i = Some (k, row) -> has_row w1 w' s sc cols (out k) n) /\ (forall n, ~ In n ns -> as_before w1 w' n)).
  { destruct flt as [f|]; cbn [option_map].
    - destruct (filter_picks f rows ns None 0 (seq_NoDup _ _) E) as (ts & P & I & B); [unfold ns; now rewrite seq_length|].
      destruct (array_obs int_src w1 rows s fields ns cols errs convs sc out (Some (fun a _ => f a)) ts G1 Ne Dc F Lc Logic.I P) as (w' & Ew & G & L). { intros k row n K N. apply H1; trivial. apply I. now apply nth_error_In in N. }
      exists w'. split; [exact Ew|]. split; [intros i n k row N K; specialize (L n); now rewrite (B i n k row N K) in L|]. intros n N. specialize (L n). rewrite last_at_out in L; trivial. intros X. apply N, I, X.
    - assert (Aa : acc = combine (seq 0 (List.length rows)) rows). { unfold acc, accepted, g. clear. generalize 0. induction rows as [|a r IH]; intros k; cbn; trivial. now rewrite IH. }
      assert (Ll : List.length rows = List.length ns) by (unfold ns; rewrite seq_length, Aa, combine_length, seq_length; lia).
      destruct (array_obs int_src w1 rows s fields ns cols errs convs sc out None ns G1 Ne Dc F Lc Ll (picks_none _ _ _ Ll)) as (w' & Ew & G & L). { intros k row n K N. apply H1; trivial. now apply nth_error_In in N. }
      exists w'. split; [exact Ew|]. split.
      + intros i n k row N K. specialize (L n). rewrite (last_at_nth ns (seq_NoDup _ _) n 0 i N) in L. cbn in L. rewrite Aa in K. apply nth_combine in K; [|apply seq_length]. destruct K as (K & _). assert (k = i) as ->; [|exact L].
        assert (Hi : i < List.length rows) by (rewrite <- (seq_length (List.length rows) 0); apply nth_error_Some; congruence). rewrite (nth_error_nth' _ 0) in K by (now rewrite seq_length). rewrite seq_nth in K by trivial. injection K as <-. reflexivity.
      + intros n N. specialize (L n). now rewrite last_at_out in L. }
  destruct S as (w' & E2 & R2 & O2). exists w1, w'. unfold arrayToCatalog. fold g. rewrite E1, E2. split; [reflexivity|]. split.
  - intros i k row K. assert (Hi : i < List.length acc) by (apply nth_error_Some; congruence). split; [now apply (N1 i k row)|]. apply (R2 i _ k row); auto.
  - intros n N. apply (before_trans w w1 w'); [now apply O1|]. apply O2. intros X. apply in_seq in X. lia.
Qed.

(** ** Refuted *)
Definition no_errs (c k : nat) : option (V * V) := None.
(** a row that matches no node overwrites the last node that is left (here the one node, whose own row came first) *)
Theorem C130_unmatched_refuted : forall (a b : V) (m : @matcher V), m [a] 0 = true -> m [b] 0 = false ->
  exists w', arrayToNodes newWorld [[a]; [b]] 1 [(0, L "x")] [0] no_errs (Some m) [COne (fun r => Ok r)] true = (w', Ok tt) /\ FnModel.getitem w' 0 (NStr (L "x")) = Ok (Value b).
Proof.
  intros a b m A B. unfold arrayToNodes. cbn [List.length Nat.eqb negb seq map getf all_some option_map twoargs bindr loop pick find_first]. rewrite A. cbn. eexists. split; reflexivity.
Qed.
(** arrayToCatalog with a filter: rows rejected after the last accepted one overwrite the last node *)
Theorem C130_filter_refuted : forall (a b : V) (flt : list V -> bool), flt [a] = true -> flt [b] = false ->
  exists w', arrayToCatalog newWorld 5 [[a]; [b]] 1 [(0, L "x")] no_errs [COne (fun r => Ok r)] (Some flt) None true = (w', Ok [5]) /\ FnModel.getitem w' 5 (NStr (L "x")) = Ok (Value b).
Proof.
  intros a b flt A B. unfold arrayToCatalog. cbn [makeNodes]. rewrite A, B. cbn [makeNodes option_map]. unfold arrayToNodes. cbn [List.length Nat.eqb negb seq map getf all_some option_map twoargs bindr loop pick find_first]. rewrite A. cbn. eexists. split; reflexivity.
Qed.
(** if the filter accepts no row, it is not an empty catalog but an error *)
Theorem C130_none_refuted : forall (a : V) (flt : list V -> bool), flt [a] = false -> arrayToCatalog newWorld 5 [[a]] 1 [(0, L "x")] no_errs [COne (fun r => Ok r)] (Some flt) None true = (newWorld, Raise NameError).
Proof. intros a flt A. unfold arrayToCatalog. cbn [makeNodes]. rewrite A. reflexivity. Qed.
(** a converter of any number of arguments cannot be used; a later one is called with the wrong number of arguments *)
Theorem C130_star_refuted : forall (a b : V),
  (exists w', arrayToNodes newWorld [[a]] 1 [(0, L "x")] [0] no_errs None [CVar (fun r _ => Ok r)] true = (w', Raise IndexError)) /\
  (exists w', arrayToNodes newWorld [[a; b]] 1 [(0, L "x"); (1, L "y")] [0] no_errs None [CVar (fun r _ => Ok r); COne (fun r => Ok r)] true = (w', Raise IndexError)).
Proof. intros a b. split; eexists; reflexivity. Qed.
(** a failing converter leaves the rows before written *)
Theorem C130_stops_refuted : forall (a b : V), a <> b -> (forall x y : V, {x = y} + {x <> y}) -> exists f w', arrayToNodes newWorld [[a]; [b]] 1 [(0, L "x")] [0; 1] no_errs None [COne f] true = (w', Raise TypeError) /\ FnModel.getitem w' 0 (NStr (L "x")) = Ok (Value a).
Proof.
  intros a b N D. exists (fun r => match r with RRaw x => if D x b then Raise TypeError else Ok r | _ => Ok r end). unfold arrayToNodes. cbn [List.length Nat.eqb negb seq map getf all_some option_map twoargs bindr loop pick].
  unfold doRow at 1. cbn [addMissing has existsb n_names nodes newWorld addField]. cbn. destruct (D a b) as [|_]; [contradiction|]. cbn. destruct (D b b); [|congruence]. eexists. split; reflexivity.
Qed.
End Proofs.

(** the hypotheses are met: two rows of two columns into two nodes, the first of which has a Field x with a value of another source; and a filter *)
Definition anw : @world nat := fold_left (step (fun _ => 0)) [OAdd 0 (FName (L "x")); OSet 0 (NStr (L "x")) (CInp (IPair 3 30))] newWorld.
Definition idc : @conv nat := COne (fun r => Ok r).
Example ex_rows : let rows := [[1; 2]; [3; 4]] in let out := fun k c => (nth c (nth k rows []) 0, @nil nat) in
  reach (fun _ => 0) anw /\ names_cols [(0, L "x"); (1, L "y")] [L "x"; L "y"] /\ NoDup [L "x"; L "y"] /\
  (forall k row n, nth_error rows k = Some row -> row_ok anw [L "x"; L "y"] [idc; idc] no_errs k (out k) row n) /\
  (let r := arrayToNodes anw rows 1 [(0, L "x"); (1, L "y")] [0; 1] no_errs None [idc; idc] true in snd r = Ok tt /\ values (fst r) 0 = [Some 1; Some 2] /\ values (fst r) 1 = [Some 3; Some 4] /\ map v_src (vals_of (fst r) 0 (L "x")) = [1; 3]).
Proof.
  intros rows out. split; [unfold anw; cbn [fold_left]; repeat (apply reach_step; [|exact I]); apply reach_new|]. split; [split; [reflexivity|]; intros [|[|[|c]]] name; cbn; congruence|]. split.
  { apply NoDup_cons; [cbn; intros [H|[]]; discriminate|]. apply NoDup_cons; [intros []|apply NoDup_nil]. }
  split.
  - assert (Acc : forall n name (x : nat), accepts anw n name x = true). { intros n name x. unfold accepts. destruct (has _ _); trivial. destruct (n_attr _ _) as [[|[|i]]|]; reflexivity. }
    intros [|[|[|k]]] row n; cbn; try discriminate; intros [= <-]; (split; [reflexivity|]); intros [|[|[|c]]] x name; cbn; try discriminate; intros [= <-] [= <-]; exists idc; (split; [reflexivity|]); (split; [eexists; split; [reflexivity|left; split; reflexivity]|]); (split; [apply Acc|intros e []]).
  - vm_compute. repeat split.
Qed.
Example ex_filter : ends_accepted (fun r => Nat.leb 2 (nth 0 r 0)) [[3]; [1]; [5]] /\ accepted (fun r => Nat.leb 2 (nth 0 r 0)) 0 [[3]; [1]; [5]] = [(0, [3]); (2, [5])] /\
  let r := arrayToCatalog (newWorld (V := nat)) 7 [[3]; [1]; [5]] 1 [(0, L "x")] no_errs [idc] (Some (fun r => Nat.leb 2 (nth 0 r 0))) (Some (L "name", fun i => i)) true in snd r = Ok [7; 8] /\ values (fst r) 7 = [Some 0; Some 3] /\ values (fst r) 8 = [Some 2; Some 5].
Proof. vm_compute. repeat split. Qed.
