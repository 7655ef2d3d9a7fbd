(** * IoFiles: column definitions in files, and pickles (C78, C79) *)
From Coq Require Import List Bool ZArith String Ascii Arith Lia.
From Verif Require Import PyBase PubModel PubComments IoModel IoColumns.
Import ListNotations.

(** ** C78: column definitions read from a file *)
(** Specification: a file with lines that define columns and others *)
Inductive hline := Def (name : str) (lo hi : nat) | Other (s : str).
Section Header.
Variable named : str -> nat.
Variable start : str.
Variable sep : ascii.
Definition print_line (l : hline) : str := match l with Def n lo hi => start ++ n ++ sep :: decimal lo ++ sep :: decimal hi ++ [nl] | Other s => s end.
(** a name can be written down: it is not empty, begins with something visible, and has no separator in it and no first character of [start] *)
Definition writable (n : str) : Prop := ~ In sep n /\ (forall a r, start = a :: r -> ~ In a n).
Definition fine (l : hline) : Prop := match l with Def n _ _ => writable n | Other s => forall t, strip s <> start ++ t end.
Definition defs (l : list hline) : list (nat * col) := flat_map (fun h => match h with Def n lo hi => [(named n, Col (Z.of_nat lo) (Z.of_nat hi) None)] | Other _ => [] end) l.
Fixpoint add_all (l : list (nat * col)) (p : parser) : @res parser := match l with [] => Ok p | (n, c) :: l => match addColumn n c p with Ok p' => add_all l p' | Raise e => Raise e | OutOfFuel => OutOfFuel end end.

Lemma drop_spec p s r : drop p s = Some r <-> s = p ++ r.
Proof.
  revert s. induction p as [|a p IH]; intros s; cbn [drop app]; [split; congruence|]. destruct s as [|b s]; [split; discriminate|]. destruct (a =a b) eqn:E.
  - apply ascii_eqb_spec in E. subst. rewrite IH. split; congruence.
  - split; [discriminate|]. intros H. injection H as <- _. assert (X : (b =a b) = true) by now apply ascii_eqb_spec. congruence.
Qed.
Lemma drop_head a p s : drop (a :: p) s <> None -> In a s.
Proof. destruct s as [|b s]; cbn [drop]; [congruence|]. destruct (a =a b) eqn:E; [|congruence]. apply ascii_eqb_spec in E. subst. intros _. now left. Qed.
Lemma remove_none fuel a p s : ~ In a s -> remove_all fuel (a :: p) s = s.
Proof.
  revert s. induction fuel as [|f IH]; intros s N; cbn [remove_all]; [reflexivity|]. destruct s as [|b s]; [reflexivity|]. destruct (drop (a :: p) (b :: s)) eqn:E; [exfalso; apply N; apply (drop_head a p); congruence|]. f_equal. apply IH. intros I. apply N. now right.
Qed.
Lemma remove_start fuel a p s : ~ In a s -> (List.length s < fuel)%nat -> remove_all fuel (a :: p) ((a :: p) ++ s) = s.
Proof.
  intros N F. destruct fuel as [|f]; [lia|]. cbn [remove_all app]. assert (D : drop (a :: p) (a :: p ++ s) = Some s) by now apply drop_spec. rewrite D. now apply remove_none.
Qed.
Lemma split_no c s : ~ In c s -> split_on c s = [s].
Proof. induction s as [|a s IH]; intros N; cbn [split_on]; [reflexivity|]. destruct (a =a c) eqn:E; [apply ascii_eqb_spec in E; exfalso; apply N; now left|]. rewrite IH; [reflexivity|]. intros I. apply N. now right. Qed.
Lemma split_one c x r : ~ In c x -> split_on c (x ++ c :: r) = x :: split_on c r.
Proof.
  induction x as [|a x IH]; intros N; cbn [app split_on].
  - assert (E : (c =a c) = true) by now apply ascii_eqb_spec. now rewrite E.
  - destruct (a =a c) eqn:E; [apply ascii_eqb_spec in E; exfalso; apply N; now left|]. rewrite IH; [reflexivity|]. intros I. apply N. now right.
Qed.
Lemma nl_space : space nl.
Proof. reflexivity. Qed.
Lemma digit_visible a : (48 <= nat_of_ascii a <= 57)%nat -> ~ space a.
Proof. intros H. unfold space, is_space. cbv zeta. destruct (Nat.leb_spec 9 (nat_of_ascii a)), (Nat.leb_spec (nat_of_ascii a) 13), (Nat.eqb_spec (nat_of_ascii a) 32); cbn [andb orb]; try congruence; lia. Qed.
Lemma decimal_last n : exists s a, decimal n = s ++ [a] /\ ~ space a /\ (48 <= nat_of_ascii a <= 57)%nat.
Proof.
  destruct (exists_last (decimal_go_nonempty n n)) as (s & a & E). exists s, a. split; [exact E|]. pose proof (decimal_go_digits (S n) n) as F. rewrite E, Forall_app in F. destruct F as [_ F]. inversion F; subst. split; [now apply digit_visible|trivial].
Qed.
Lemma strip_id a s b : ~ space a -> ~ space b -> strip (a :: s ++ [b]) = a :: s ++ [b].
Proof.
  intros A B. unfold strip, lstrip. cbn [span]. destruct (is_space a) eqn:E; [contradiction|]. cbn [snd]. unfold rstrip. rewrite app_comm_cons, rev_app_distr. cbn [rev app span]. destruct (is_space b) eqn:E'; [contradiction|]. cbn [snd]. change (b :: rev s ++ [a]) with (rev [b] ++ rev (a :: s)). rewrite <- rev_app_distr. apply rev_involutive.
Qed.
Lemma strip_nl a s b : ~ space a -> ~ space b -> strip (a :: s ++ [b] ++ [nl]) = a :: s ++ [b].
Proof.
  intros A B. unfold strip, lstrip. cbn [span]. destruct (is_space a) eqn:E; [contradiction|]. cbn [snd]. unfold rstrip. rewrite app_assoc, app_comm_cons, rev_app_distr. cbn [rev app span]. rewrite nl_space. rewrite rev_app_distr. cbn [rev app span]. destruct (is_space b) eqn:E'; [contradiction|]. cbn [snd]. change (b :: rev s ++ [a]) with (rev [b] ++ rev (a :: s)). rewrite <- rev_app_distr. apply rev_involutive.
Qed.
Lemma strip_digits n : strip (decimal n) = decimal n.
Proof.
  destruct (decimal_last n) as (s & b & E & B & _). pose proof (decimal_go_digits (S n) n) as F. fold (decimal n) in F. rewrite E in *. destruct s as [|a s]; cbn [app].
  - unfold strip, lstrip. cbn [span]. destruct (is_space b) eqn:Eb; [contradiction|]. cbn [snd]. unfold rstrip. cbn [rev app span]. rewrite Eb. reflexivity.
  - apply strip_id; [|trivial]. inversion F; subst. now apply digit_visible.
Qed.
Lemma int_decimal n : py_int (decimal n) = Ok (Z.of_nat n).
Proof.
  unfold py_int. rewrite strip_digits. pose proof (decimal_go_digits (S n) n) as F. fold (decimal n) in F. pose proof (parse_decimal n) as P. destruct (decimal n) as [|a r]; [rewrite P; f_equal; lia|]. inversion F as [|? ? Fa Fr]; subst.
  assert (N1 : (a =a "-"%char) = false). { destruct (a =a "-"%char) eqn:E; [|reflexivity]. apply ascii_eqb_spec in E. subst. cbn in Fa. lia. }
  assert (N2 : (a =a "+"%char) = false). { destruct (a =a "+"%char) eqn:E; [|reflexivity]. apply ascii_eqb_spec in E. subst. cbn in Fa. lia. }
  rewrite N1, N2, P. f_equal. lia.
Qed.
Definition plain (a : ascii) : Prop := (nat_of_ascii a < 48 \/ 57 < nat_of_ascii a)%nat.
Lemma decimal_no' a n : plain a -> ~ In a (decimal n).
Proof. apply decimal_no. Qed.
Lemma line_entry n lo hi a r : start = a :: r -> ~ space a -> plain a -> plain sep -> sep <> a -> writable n ->
  let ls := strip (print_line (Def n lo hi)) in starts start ls = true /\ splitl (Some sep) (remove_all (List.length ls) start ls) = [n; decimal lo; decimal hi].
Proof.
  intros E A P1 P2 Na [W1 W2]. destruct (decimal_last hi) as (t & b & D & B & _). cbv zeta.
  assert (S : strip (print_line (Def n lo hi)) = start ++ (n ++ sep :: decimal lo ++ sep :: decimal hi)).
  { cbn [print_line]. rewrite D, E. replace ((a :: r) ++ n ++ sep :: decimal lo ++ sep :: (t ++ [b]) ++ [nl]) with (a :: (r ++ n ++ sep :: decimal lo ++ sep :: t) ++ [b] ++ [nl]) by (cbn [app]; rewrite <- !app_assoc; cbn [app]; rewrite <- !app_assoc; reflexivity). rewrite strip_nl by trivial. cbn [app]. rewrite <- !app_assoc. cbn [app]. rewrite <- !app_assoc. reflexivity. }
  rewrite S. split; [unfold starts; now rewrite (proj2 (drop_spec start _ _) eq_refl)|]. rewrite E. rewrite remove_start.
  - cbn [splitl]. rewrite split_one by trivial. rewrite split_one by now apply decimal_no'. rewrite split_no by now apply decimal_no'. reflexivity.
  - intros I. apply in_app_or in I. destruct I as [I|[I|I]]; [exact (W2 a r E I)|congruence|]. apply in_app_or in I. destruct I as [I|[I|I]]; [now apply (decimal_no' a lo)|congruence|now apply (decimal_no' a hi)].
  - rewrite !app_length. cbn [List.length]. lia.
Qed.
Lemma add_from_lines l a r : start = a :: r -> ~ space a -> plain a -> plain sep -> sep <> a -> Forall fine l ->
  forall p icols p', add_all (defs l) p = Ok p' -> add_from named (Some start) (Some sep) None icols (map print_line l) p = Ok (p', icols + List.length (defs l))%nat.
Proof.
  intros E A P1 P2 Na F. induction l as [|h l IH]; intros p icols p' H; cbn [map add_from defs flat_map List.length] in *; [injection H as <-; now rewrite Nat.add_0_r|]. assert (Fh : fine h) by now inversion F. assert (Fl : Forall fine l) by now inversion F. clear F. specialize (IH Fl). destruct h as [n lo hi|s].
  - destruct (line_entry n lo hi a r E A P1 P2 Na Fh) as [S1 S2]. rewrite S1, S2. unfold column_of. rewrite !int_decimal. cbn [app add_all] in H. destruct (addColumn (named n) _ p) as [q| |]; try discriminate. rewrite (IH _ _ _ H). f_equal. f_equal. cbn [app List.length]. unfold defs. lia.
  - cbn [print_line fine app] in *. assert (St : starts start (strip s) = false). { unfold starts. destruct (drop start (strip s)) eqn:D; [|reflexivity]. apply drop_spec in D. now apply Fh in D. } rewrite St. exact (IH _ _ _ H).
Qed.
(** a file with definitions name, lower, upper gives exactly these columns, in order, whatever other lines there are *)
Theorem C78_columns : forall l a r skip first com p', start = a :: r -> ~ space a -> plain a -> plain sep -> sep <> a -> Forall fine l ->
  add_all (defs l) (newParser skip first com) = Ok p' -> forall head, List.length head = skip ->
  addColumnsFromFile named (Some start) (Some sep) true None (head ++ map print_line l) (newParser skip first com) = Ok (p', List.length (defs l)) /\
  addColumnsFromFile named (Some start) (Some sep) false None (map print_line l) (newParser skip first com) = Ok (p', List.length (defs l)).
Proof.
  intros l a r skip first com p' E A P1 P2 Na F H head Hh. unfold addColumnsFromFile. cbn [skiprows newParser]. rewrite <- Hh, skipn_app, skipn_all, Nat.sub_diag. cbn [skipn app]. rewrite Hh. rewrite (add_from_lines l a r E A P1 P2 Na F _ 0 p' H). split; reflexivity.
Qed.
End Header.
(** the columns are accepted if no character belongs to two of them and the names are different *)
Theorem C78_accepted : forall l skip first com, NoDup (map fst l) -> (forall n c, In (n, c) l -> lower c <= upper c)%Z -> (forall n m c d x, In (n, c) l -> In (m, d) l -> n <> m -> covers c x -> covers d x -> False) ->
  exists p, add_all l (newParser skip first com) = Ok p /\ forall n c, column p n c <-> In (n, c) l.
Proof.
  intros l skip first com N W D. assert (G : forall l2 p l1, l = l1 ++ l2 -> good p -> (forall n c, column p n c <-> In (n, c) l1) -> exists p', add_all l2 p = Ok p' /\ forall n c, column p' n c <-> In (n, c) l).
  { induction l2 as [|[n c] l2 IH]; intros p l1 E Gp Hp; cbn [add_all]; [exists p; split; [reflexivity|]; rewrite app_nil_r in E; now subst|].
    assert (Ic : In (n, c) l) by (rewrite E; apply in_or_app; right; now left). assert (Nn : ~ In n (map fst l1)). { rewrite E, map_app in N. cbn [map fst] in N. apply NoDup_remove_2 in N. intros I. apply N. apply in_or_app. now left. }
    destruct (addColumn n c p) as [q|e|] eqn:A.
    - destruct (add_good n c p q Gp A) as (Gq & Hq & _). apply (IH q (l1 ++ [(n, c)])); [rewrite <- app_assoc; exact E|trivial|]. intros m d. rewrite Hq, Hp, in_app_iff. cbn [In]. split; [intros [[-> ->]|[M I]]; auto|]. intros [I|[I|[]]]; [|injection I as -> ->; now left]. right. split; [|trivial]. intros ->. apply Nn. now apply (in_map fst) in I.
    - exfalso. unfold addColumn in A. rewrite (proj2 (overlaps_spec _ _ _ _)) in A; [discriminate|]. intros m d M I [B1 B2]. rewrite Hp in I. assert (Id : In (m, d) l) by (rewrite E; apply in_or_app; now left). pose proof (W n c Ic). pose proof (W m d Id). apply (D n m c d (Z.max (lower c) (lower d)) Ic Id); [congruence| |]; unfold covers; lia.
    - unfold addColumn in A. destruct (overlaps _ _ _ _); discriminate. }
  apply (G l (newParser skip first com) []); [reflexivity| |intros n c; reflexivity]. split; [constructor|]. intros n m c d _ [].
Qed.
(** the mark of definition lines is removed everywhere in the line: a name that contains it is changed *)
Theorem C78_mark_refuted : exists n p, addColumnsFromFile (fun s => List.length s) (Some (L "#")) (Some " "%char) false None [L "#a#b 1 4"] (newParser 0 1 (L "#")) = Ok (p, 1%nat) /\ cols p = [(n, Col 1 4 None)] /\ n <> List.length (L "a#b").
Proof. eexists. eexists. split; [reflexivity|]. split; [reflexivity|discriminate]. Qed.
(** a limit of no columns still reads the first line *)
Theorem C78_limit_refuted : exists p, addColumnsFromFile (fun s => List.length s) (Some (L "#:")) (Some " "%char) false (Some 0%nat) [L "#:a 1 4"] (newParser 0 1 (L "#")) = Ok (p, 1%nat).
Proof. eexists. reflexivity. Qed.
Example C78_nonvacuous : exists p, addColumnsFromFile (fun s => List.length s) (Some (L "#:")) (Some " "%char) false None (map (print_line (L "#:") " "%char) [Def (L "x") 1 4; Other (L "# text"); Def (L "col") 6 16]) (newParser 0 1 (L "#")) = Ok (p, 2%nat) /\ cols p = [(1%nat, Col 1 4 None); (3%nat, Col 6 16 None)].
Proof. eexists. split; reflexivity. Qed.

(** ** C79: pickles *)
Section Pickles.
Context {obj : Type}.
Variable enc : obj -> str.
Variable dec : str -> option (obj * str).
Hypothesis dec_enc : forall x r, dec (enc x ++ r) = Some (x, r).
Hypothesis dec_eof : dec [] = None.
(** the objects of a file: those written since it was last overwritten *)
Definition written (l : list obj) (w : obj * bool) : list obj := if snd w then l ++ [fst w] else [fst w].
Definition saved (f : option str) (w : obj * bool) : option str := fpickle enc (fst w) (snd w) f.
Lemma load_n_spec n l : load_n dec n (List.concat (map enc l)) = if Nat.leb n (List.length l) then Ok (firstn n l) else Raise EOFError.
Proof.
  revert l. induction n as [|n IH]; intros l; cbn [load_n]; [reflexivity|]. destruct l as [|x l]; cbn [map List.concat List.length]; [now rewrite dec_eof|]. rewrite dec_enc, IH. cbn [Nat.leb]. destruct (Nat.leb n (List.length l)); reflexivity.
Qed.
Lemma load_all_spec fuel l : (List.length l < fuel)%nat -> load_all dec fuel (List.concat (map enc l)) = Ok l.
Proof.
  revert l. induction fuel as [|f IH]; intros l H; [lia|]. cbn [load_all]. destruct l as [|x l]; cbn [map List.concat]; [now rewrite dec_eof|]. rewrite dec_enc, IH by (cbn in H; lia). reflexivity.
Qed.
(** after any sequence of writes the file gives back the objects: all of them, the first n, or the first *)
Theorem C79_pickles : forall ws, ws <> [] -> let f := fold_left saved ws None in let l := fold_left written ws [] in
  (forall n fuel, (n < 0)%Z -> (List.length l < fuel)%nat -> funpickle dec fuel n f = Ok (LMany l)) /\
  (forall n fuel, (0 < n <= List.length l)%nat -> funpickle dec fuel (Z.of_nat n) f = Ok (LMany (firstn n l))) /\
  (forall n fuel, (List.length l < n)%nat -> funpickle dec fuel (Z.of_nat n) f = Raise EOFError) /\
  (forall fuel, exists x, hd_error l = Some x /\ funpickle dec fuel 0 f = Ok (LOne x)).
Proof.
  intros ws N f l. assert (G : f = Some (List.concat (map enc l)) /\ l <> []).
  { unfold f, l. clear f l. assert (S : forall ws f0 l0, match f0 with None => l0 = [] | Some c => c = List.concat (map enc l0) end -> ws <> [] -> fold_left saved ws f0 = Some (List.concat (map enc (fold_left written ws l0))) /\ fold_left written ws l0 <> []).
    { clear. induction ws as [|[x a] ws IH]; intros f0 l0 H N; [congruence|]. cbn [fold_left]. assert (Q : saved f0 (x, a) = Some (List.concat (map enc (written l0 (x, a)))) /\ written l0 (x, a) <> []). { unfold saved, written, fpickle. cbn [fst snd]. destruct a; [|split; [cbn [map List.concat app]; now rewrite app_nil_r|discriminate]]. split; [|intros Z; now apply app_eq_nil in Z as [_ Z]]. rewrite map_app, concat_app. cbn [map List.concat]. rewrite app_nil_r. destruct f0; subst; reflexivity. }
      destruct Q as [Q1 Q2]. destruct ws as [|w ws]; [cbn [fold_left]; now split|]. apply IH; [|discriminate]. now rewrite Q1. }
    apply (S ws None []); [reflexivity|exact N]. }
  destruct G as [G1 G2]. unfold funpickle. rewrite G1. repeat split.
  - intros n fuel H F. destruct (Z.ltb_spec 0 n); [lia|]. destruct (Z.ltb_spec n 0); [|lia]. now rewrite load_all_spec.
  - intros n fuel H. destruct (Z.ltb_spec 0 (Z.of_nat n)); [|lia]. rewrite Nat2Z.id, load_n_spec. destruct (Nat.leb_spec n (List.length l)); [reflexivity|lia].
  - intros n fuel H. destruct (Z.ltb_spec 0 (Z.of_nat n)); [|lia]. rewrite Nat2Z.id, load_n_spec. destruct (Nat.leb_spec n (List.length l)); [lia|reflexivity].
  - intros fuel. destruct l as [|x l]; [congruence|]. exists x. split; [reflexivity|]. cbn [map List.concat Z.ltb]. change (0 <? 0)%Z with false. cbv iota. now rewrite dec_enc.
Qed.
End Pickles.
(** a negative number gives a list, not a single object as documented *)
Theorem C79_negative_refuted : exists (enc : bool -> str) (dec : str -> option (bool * str)), (forall x r, dec (enc x ++ r) = Some (x, r)) /\ dec [] = None /\ funpickle dec 5 (-1) (fpickle enc true false None) = Ok (LMany [true]).
Proof.
  exists (fun b : bool => if b then ["1"%char] else ["0"%char]), (fun s : str => match s with [] => None | a :: r => Some (a =a "1"%char, r) end). split; [intros [] r; reflexivity|]. split; reflexivity.
Qed.
