(** * TabText: the text of a table holds its rows (C103) *)
From Coq Require Import List Bool Arith Ascii String Lia.
From Verif Require Import PyBase PubModel IoFiles TabModel.
Import ListNotations.

Section Text.
Context {V F : Type}.
Variables (show : F -> V -> str) (mean : V * V -> V).
Notation column := (column V F).
Notation table := (table V F).
(** ** Specification *)
(** a table of [n] objects: every column has a value (or none) and errors for each *)
Definition full (n : nat) (t : table) : Prop :=
  columns t <> [] /\ Forall (fun c => match c with Data f v e => List.length v = n /\ List.length e = n | Source s => List.length s = n end) (columns t).
Definition data (c : column) : Prop := match c with Data _ _ _ => True | Source _ => False end.
(** how column [c] of object [i] is written: value, or value^{+upper}_{-lower}, or [empty] *)
Definition written (errors : bool) (empty : str) (i : nat) (c : column) (x : str) : Prop :=
  match c with
  | Source s => nth_error s i = Some x
  | Data f v e =>
      nth_error v i = Some None /\ x = empty \/
      exists y u w, nth_error v i = Some (Some y) /\ nth_error e i = Some (u, w) /\
        x = show f y ++ if errors then L "^{+" ++ show f u ++ L "}_{-" ++ show f w ++ L "}" else []
  end.
(** in ascii with errors a value and the mean of its errors are two cells; a value that is not there is nan *)
Definition written2 (i : nat) (c : column) (xs : list str) : Prop :=
  match c with
  | Source s => False
  | Data f v e => exists y p, nth_error v i = Some y /\ nth_error e i = Some p /\ xs = [match y with Some y => show f y | None => L "nan" end; show f (mean p)]
  end.
(** reading a LaTeX row: without the final row mark, cells separated by & and trimmed *)
Definition unmark (l : str) : str := match rev l with "\"%char :: "\"%char :: r => rev r | _ => l end.
Definition row_cells (l : str) : list str := map strip (split_on "&"%char (unmark l)).
Definition without (a : ascii) (x : str) : Prop := ~ In a x.

(** ** Splitting *)
Lemma split_app c x y : split_on c (x ++ c :: y) = split_on c x ++ split_on c y.
Proof.
  induction x as [|a x IH]; cbn [app split_on]; [now rewrite Ascii.eqb_refl|]. destruct (Ascii.eqb a c) eqn:E; [cbn [app]; now rewrite IH|]. rewrite IH.
  assert (split_on c x <> []) as N by (destruct x as [|b x]; cbn [split_on]; [discriminate|]; destruct (Ascii.eqb b c); [discriminate|]; destruct (split_on c x); discriminate).
  destruct (split_on c x); [contradiction|reflexivity].
Qed.
Lemma join_app sep a b : a <> [] -> b <> [] -> join sep (a ++ b) = join sep a ++ sep ++ join sep b.
Proof.
  intros A B. induction a as [|x a IH]; [contradiction|]. destruct a as [|y a].
  - cbn [app]. destruct b; [contradiction|]. reflexivity.
  - change (x ++ sep ++ join sep ((y :: a) ++ b) = (x ++ sep ++ join sep (y :: a)) ++ sep ++ join sep b). rewrite IH by discriminate. now rewrite <- !app_assoc.
Qed.
Lemma split_lines a b : a <> [] -> b <> [] -> split_on nl (join [nl] (a ++ b)) = split_on nl (join [nl] a) ++ split_on nl (join [nl] b).
Proof. intros A B. rewrite join_app by assumption. cbn [app]. apply split_app. Qed.
Lemma split_own a : a <> [] -> Forall (without nl) a -> split_on nl (join [nl] a) = a.
Proof.
  intros A H. induction H as [|x a Hx H IH]; [contradiction|]. destruct a as [|y a]; [now apply split_no|].
  change (split_on nl (x ++ nl :: join [nl] (y :: a)) = x :: y :: a). rewrite split_one by exact Hx. now rewrite IH.
Qed.
Lemma split_cells c (cells : list str) : cells <> [] -> Forall (without c) cells -> split_on c (join [c] cells) = cells.
Proof.
  intros A H. induction H as [|x a Hx H IH]; [contradiction|]. destruct a as [|y a]; [now apply split_no|].
  change (split_on c (x ++ c :: join [c] (y :: a)) = x :: y :: a). rewrite split_one by exact Hx. now rewrite IH.
Qed.
(** ** Trimming *)
Lemma strip_space_l x : strip (" "%char :: x) = strip x.
Proof. unfold strip. cbn [span]. change (is_space " ") with true. cbv iota. destruct (span is_space x) as [a b] eqn:E. reflexivity. Qed.
Lemma rstrip_space x : rstrip (x ++ [" "%char]) = rstrip x.
Proof. unfold rstrip. rewrite rev_app_distr. cbn [rev app span]. change (is_space " ") with true. cbv iota. destruct (span is_space (rev x)) as [a b]. reflexivity. Qed.
Lemma strip_space_r x : strip (x ++ [" "%char]) = strip x.
Proof.
  unfold strip. assert (forall y, exists z, snd (span is_space (y ++ [" "%char])) = z /\ rstrip z = rstrip (snd (span is_space y))) as G.
  { induction y as [|a y IH]; cbn [app span].
    - change (is_space " ") with true. cbv iota. exists []. split; reflexivity.
    - destruct (is_space a); [|exists (a :: y ++ [" "%char]); split; [reflexivity|]; exact (rstrip_space (a :: y))].
      destruct (span is_space (y ++ [" "%char])) as [u v]. destruct (span is_space y) as [u2 v2]. exact IH. }
  destruct (G x) as (z & -> & E). exact E.
Qed.
(** the cells of a line *)
Lemma line_cells cells (tail : str) : cells <> [] -> Forall (without "&"%char) cells -> tail = [] \/ tail = L " " ->
  map strip (split_on "&"%char (join (L " & ") cells ++ tail)) = map strip cells.
Proof.
  intros N H T. assert (without "&"%char tail) as Ht by (destruct T as [-> | ->]; [intros []|intros [E|[]]; discriminate]).
  assert (forall x, strip (x ++ tail) = strip x) as St by (intros x; destruct T as [-> | ->]; [now rewrite app_nil_r|apply strip_space_r]).
  assert (forall lead, lead = [] \/ lead = L " " -> map strip (split_on "&"%char (lead ++ join (L " & ") cells ++ tail)) = map strip cells) as G; [|exact (G [] (or_introl eq_refl))].
  induction H as [|x a Hx H IH]; [contradiction|]. intros lead Ld.
  assert (without "&"%char lead) as Hl by (destruct Ld as [-> | ->]; [intros []|intros [E|[]]; discriminate]).
  assert (forall y, strip (lead ++ y) = strip y) as Sl by (intros y; destruct Ld as [-> | ->]; [reflexivity|apply strip_space_l]).
  destruct a as [|y a].
  - cbn [join]. rewrite split_no. 2:{ unfold without in *. rewrite !in_app_iff. tauto. } cbn [map]. now rewrite Sl, St.
  - change (join (L " & ") (x :: y :: a)) with (x ++ L " & " ++ join (L " & ") (y :: a)). 
    replace (lead ++ (x ++ L " & " ++ join (L " & ") (y :: a)) ++ tail) with ((lead ++ x ++ [" "%char]) ++ "&"%char :: (L " " ++ join (L " & ") (y :: a) ++ tail)).
    2:{ rewrite <- !app_assoc. reflexivity. }
    rewrite split_one. 2:{ unfold without in *. rewrite !in_app_iff. cbn [In]. intros [I'|[I'|[I'|[]]]]; [tauto|tauto|discriminate]. }
    cbn [map]. rewrite Sl, strip_space_r. f_equal. apply IH; [discriminate|now right].
Qed.
Lemma unmark_mark x : unmark (x ++ L "\\") = x.
Proof. unfold unmark. rewrite rev_app_distr. cbn [L list_ascii_of_string rev app]. apply rev_involutive. Qed.
Lemma unmark_other x a : a <> "\"%char -> unmark (x ++ [a]) = x ++ [a].
Proof. intros N. unfold unmark. rewrite rev_app_distr. cbn [rev app]. destruct a as [[] [] [] [] [] [] [] []]; try reflexivity. now contradiction N. Qed.
Lemma drop_mark x : drop_last2 (x ++ L "\\") = x.
Proof. unfold drop_last2. rewrite app_length. change (List.length (L "\\")) with 2. rewrite Nat.add_sub, firstn_app, Nat.sub_diag, firstn_O, app_nil_r. apply firstn_all. Qed.
Lemma cut_last_snoc l x : cut_last (l ++ [x]) = l ++ [drop_last2 x].
Proof. induction l as [|y l IH]; [reflexivity|]. cbn [app cut_last]. rewrite IH. destruct l; reflexivity. Qed.
Lemma cut_last_app l k : k <> [] -> cut_last (l ++ k) = l ++ cut_last k.
Proof. intros K. destruct (exists_last K) as (k' & x & ->). rewrite app_assoc, !cut_last_snoc. now rewrite app_assoc. Qed.

(** ** Rows *)
Lemma full_rows n t : full n t -> rows_of t = Ok n.
Proof. intros (N & H). unfold rows_of. destruct (columns t) as [|[f v e|s] cs]; [contradiction| |]; inversion H; subst; f_equal; tauto. Qed.
Lemma plain_written n t empty i c : full n t -> i < n -> In c (columns t) -> written false empty i c (plain show empty i c).
Proof.
  intros (_ & H) I' C. rewrite Forall_forall in H. specialize (H c C). unfold written, plain. destruct c as [f v e|s].
  - destruct H as (Hv & He). destruct (nth_error v i) as [y|] eqn:Ev; [|apply nth_error_None in Ev; lia]. rewrite (nth_error_nth _ _ None Ev). destruct y as [y|]; [|now left].
    right. destruct (nth_error e i) as [[u w]|] eqn:Ee; [|apply nth_error_None in Ee; lia]. exists y, u, w. rewrite app_nil_r. auto.
  - apply nth_error_nth'. lia.
Qed.
Lemma with_err_written n i cs : Forall (fun c => match c with Data f v e => List.length v = n /\ List.length e = n | Source s => List.length s = n end) cs -> i < n -> Forall data cs ->
  exists ss, with_err show i cs = Ok ss /\ Forall2 (written true (L "\nodata") i) cs ss /\ Forall (fun x => exists y a, x = y ++ [a] /\ a <> "\"%char) ss.
Proof.
  intros Fu I' D. induction cs as [|[f v e|s] cs IH]; [exists []; repeat constructor| |inversion D as [|? ? D1 D2]; subst; destruct D1]. inversion Fu as [|? ? Hve Fu']; subst. destruct Hve as (Hv & He). inversion D; subst. destruct IH as (ss & Es & W & Q); [assumption..|].
  cbn [with_err]. destruct (nth_error v i) as [y|] eqn:Ev; [|apply nth_error_None in Ev; lia]. rewrite (nth_error_nth _ _ None Ev).
  destruct (nth_error e i) as [[u w]|] eqn:Ee; [|apply nth_error_None in Ee; lia]. rewrite Es.
  destruct y as [y|]; eexists; (split; [reflexivity|]); (split; [constructor; [|exact W]|constructor; [|exact Q]]).
  - right. exists y, u, w. auto.
  - exists (show f y ++ L "^{+" ++ show f u ++ L "}_{-" ++ show f w), "}"%char. split; [|discriminate]. now rewrite <- !app_assoc.
  - left. auto.
  - exists (L "\nodat"), "a"%char. split; [reflexivity|discriminate].
Qed.
Lemma mapM_all {A B} (f : A -> @res B) (R : A -> B -> Prop) l : (forall a, In a l -> exists b, f a = Ok b /\ R a b) -> exists k, mapM f l = Ok k /\ Forall2 R l k.
Proof.
  induction l as [|a l IH]; intros H; [exists []; split; [reflexivity|constructor]|]. destruct (H a (or_introl eq_refl)) as (b & Eb & Rb). destruct IH as (k & Ek & Rk); [intros; apply H; now right|].
  exists (b :: k). cbn [mapM]. rewrite Eb, Ek. auto.
Qed.
Lemma join_last sep (cells : list str) : cells <> [] -> Forall (fun x => exists y a, x = y ++ [a] /\ a <> "\"%char) cells -> exists y a, join sep cells = y ++ [a] /\ a <> "\"%char.
Proof.
  intros N H. induction H as [|x l (y & a & -> & Na) H IH]; [contradiction|]. destruct l as [|z l]; [exists y, a; auto|]. destruct IH as (y2 & a2 & E & N2); [discriminate|].
  exists ((y ++ [a]) ++ sep ++ y2), a2. split; [|exact N2]. change (join sep ((y ++ [a]) :: z :: l)) with ((y ++ [a]) ++ sep ++ join sep (z :: l)). rewrite E, <- !app_assoc. reflexivity.
Qed.
(** the lines of the body, the last one without its mark *)
Definition row_of (t : table) (i : nat) (l : str) : Prop :=
  exists cells, Forall2 (written (with_errors t) (L "\nodata") i) (columns t) cells /\ (Forall (without "&"%char) cells -> row_cells l = map strip cells) /\ (Forall (without nl) cells -> without nl l).
Lemma f2_in_r {A B} (R : A -> B -> Prop) l k : Forall2 R l k -> forall x, In x k -> exists a, In a l /\ R a x.
Proof. induction 1 as [|a b l k H F2 IH]; intros x I'; [contradiction|]. destruct I' as [<-|I']; [exists a; split; [now left|exact H]|]. destruct (IH x I') as (c & C & Rc). exists c. split; [now right|exact Rc]. Qed.
Lemma no_char_join a sep cells : without a sep -> Forall (without a) cells -> without a (join sep cells).
Proof.
  intros S H. induction H as [|x l Hx H IH]; [intros []|]. destruct l as [|y l]; [exact Hx|]. change (join sep (x :: y :: l)) with (x ++ sep ++ join sep (y :: l)). unfold without in *. rewrite !in_app_iff. tauto.
Qed.
Lemma body_rows n t : full n t -> (with_errors t = true -> Forall data (columns t)) ->
  exists b, body show t = Ok b /\ Forall2 (row_of t) (seq 0 n) b /\ Forall2 (row_of t) (seq 0 n) (cut_last b).
Proof.
  intros Fu D. unfold body. rewrite (full_rows n t Fu). assert (exists lines, Forall2 (fun i ss => Forall2 (written (with_errors t) (L "\nodata") i) (columns t) ss /\ (with_errors t = true -> Forall (fun x => exists y a, x = y ++ [a] /\ a <> "\"%char) ss)) (seq 0 n) lines /\
    (if with_errors t then match mapM (fun i => with_err show i (columns t)) (seq 0 n) with Ok ls => Ok (map (fun ss => join (L " & ") ss ++ L "\\") ls) | Raise e => Raise e | OutOfFuel => OutOfFuel end
      else Ok (map (fun i => join (L " & ") (map (plain show (L "\nodata") i) (columns t)) ++ L " \\") (seq 0 n))) = Ok (map (fun ss => join (L " & ") ss ++ (if with_errors t then [] else L " ") ++ L "\\") lines)) as (lines & R & E).
  { destruct (with_errors t).
    - destruct (mapM_all (fun i => with_err show i (columns t)) (fun i ss => Forall2 (written true (L "\nodata") i) (columns t) ss /\ Forall (fun x => exists y a, x = y ++ [a] /\ a <> "\"%char) ss) (seq 0 n)) as (k & Ek & Rk).
      { intros i I'. apply in_seq in I'. destruct Fu as (_ & Fu). destruct (with_err_written n i (columns t) Fu) as (ss & H); [lia|now apply D|]. exists ss. exact H. }
      exists k. rewrite Ek. split; [|reflexivity]. clear - Rk. induction Rk as [|i ss l m (A & B) Rk IH]; constructor; auto.
    - exists (map (fun i => map (plain show (L "\nodata") i) (columns t)) (seq 0 n)). rewrite map_map. split; [|reflexivity].
      assert (forall i, In i (seq 0 n) -> i < n) as Lt by (intros i I'; apply in_seq in I'; lia). clear - Fu Lt. induction (seq 0 n) as [|i l IH]; constructor; [|apply IH; intros; apply Lt; now right].
      split; [|discriminate]. assert (forall c, In c (columns t) -> written false (L "\nodata") i c (plain show (L "\nodata") i c)) as W by (intros c; apply plain_written with (n := n); auto; apply Lt; now left).
      clear - W. induction (columns t) as [|c cs IH]; constructor; [apply W; now left|]. apply IH. intros; apply W; now right. }
  rewrite E. eexists. split; [reflexivity|]. destruct Fu as (Nc & _).
  assert (forall i ss (tl : str), Forall2 (written (with_errors t) (L "\nodata") i) (columns t) ss -> (with_errors t = true -> Forall (fun x => exists y a, x = y ++ [a] /\ a <> "\"%char) ss) ->
    tl = [] \/ tl = L "\\" -> row_of t i (join (L " & ") ss ++ (if with_errors t then [] else L " ") ++ tl)) as G.
  { intros i ss tl W Q T. exists ss. split; [exact W|]. assert (ss <> []) as Ns by (intros ->; inversion W; subst; congruence). split; intros Hc.
    - unfold row_cells. replace (unmark _) with (join (L " & ") ss ++ (if with_errors t then [] else L " ")).
      + apply line_cells; [exact Ns|exact Hc|]. destruct (with_errors t); auto.
      + destruct T as [->| ->]; [|now rewrite app_assoc, unmark_mark]. rewrite app_nil_r. destruct (with_errors t).
        * rewrite app_nil_r. destruct (join_last (L " & ") ss Ns (Q eq_refl)) as (y & a & Ey & Na). rewrite Ey. now rewrite unmark_other.
        * symmetry. apply unmark_other. discriminate.
    - unfold without. rewrite !in_app_iff. assert (without nl (join (L " & ") ss)) as J. { apply no_char_join; [|exact Hc]. intros H. cbn [L list_ascii_of_string In] in H. repeat (destruct H as [H|H]; [discriminate|]). exact H. }
      intros [H|[H|H]]; [exact (J H)| |].
      + destruct (with_errors t); [exact H|]. destruct H as [H|[]]. discriminate.
      + destruct T as [->| ->]; [exact H|]. cbn in H. repeat (destruct H as [H|H]; [discriminate|]). exact H. }
  split.
  - clear - R G. induction R as [|i ss l k (W & Q) R IH]; constructor; [|exact IH]. now apply G; [| |right].
  - assert (forall ls, cut_last (map (fun ss => join (L " & ") ss ++ (if with_errors t then [] else L " ") ++ L "\\") ls) = map (fun ss => join (L " & ") ss ++ (if with_errors t then [] else L " ") ++ L "\\") (removelast ls) ++ match ls with [] => [] | _ => [join (L " & ") (last ls []) ++ (if with_errors t then [] else L " ")] end) as Cut.
    { intros ls. destruct ls as [|x ls]; [reflexivity|]. destruct (@exists_last _ (x :: ls)) as (l' & y & ->); [discriminate|]. rewrite map_app. cbn [map]. rewrite cut_last_snoc, app_assoc, drop_mark. rewrite removelast_last, last_last.
      f_equal. }
    rewrite Cut. clear - R G. induction R as [|i ss l k (W & Q) R IH]; [constructor|]. destruct k as [|s2 k].
    + inversion R; subst. cbn [removelast map app last]. constructor; [|constructor]. rewrite <- (app_nil_r (if with_errors t then [] else L " ")). now apply G; [| |left].
    + cbn [removelast map app]. constructor; [now apply G; [| |right]|]. exact IH.
Qed.
(** no cell contains the character *)
Definition tidy (a : ascii) (empty : str) (t : table) : Prop := forall i c x, In c (columns t) -> written (with_errors t) empty i c x -> without a x.
(** line number [i] of the rows holds the cells of object [i], column by column *)
Definition holds (t : table) (i : nat) (line : str) : Prop := exists cells, Forall2 (written (with_errors t) (L "\nodata") i) (columns t) cells /\ row_cells line = map strip cells.
Lemma tidy_cells a t i cells : tidy a (L "\nodata") t -> Forall2 (written (with_errors t) (L "\nodata") i) (columns t) cells -> Forall (without a) cells.
Proof. intros T W. apply Forall_forall. intros x I'. destruct (f2_in_r _ _ _ W x I') as (c & C & Wc). exact (T i c x C Wc). Qed.
Lemma rows_hold n t b : tidy "&"%char (L "\nodata") t -> tidy nl (L "\nodata") t -> Forall2 (row_of t) (seq 0 n) b -> Forall2 (holds t) (seq 0 n) b /\ Forall (without nl) b.
Proof.
  intros T1 T2. induction 1 as [|i l k m (cells & W & C & N) R (IH1 & IH2)]; [split; constructor|]. split; constructor; auto.
  - exists cells. split; [exact W|]. apply C. eapply tidy_cells; eauto.
  - apply N. eapply tidy_cells; eauto.
Qed.
(** the rows stand between two marker lines *)
Lemma rows_between pre (rows post : list str) : rows <> [] -> pre <> [] -> post <> [] -> Forall (without nl) rows ->
  split_on nl (join [nl] (pre ++ rows ++ post)) = split_on nl (join [nl] pre) ++ rows ++ split_on nl (join [nl] post).
Proof. intros R P Q N. rewrite split_lines; [|exact P|destruct rows; [contradiction|discriminate]]. f_equal. rewrite split_lines by assumption. now rewrite split_own. Qed.
Theorem latex_rows n t : full n t -> 0 < n -> (with_errors t = true -> Forall data (columns t)) -> tidy "&"%char (L "\nodata") t -> tidy nl (L "\nodata") t ->
  exists text pre rows post, latex show t = Ok text /\ split_on nl text = pre ++ [L "\hline"] ++ rows ++ [L "\end{tabular}"] ++ post /\ Forall2 (holds t) (seq 0 n) rows.
Proof.
  intros Fu N D T1 T2. destruct (body_rows n t Fu D) as (b & Eb & _ & R). destruct (rows_hold n t _ T1 T2 R) as (H & Nn). unfold latex. rewrite Eb.
  assert (b <> []) as Bn. { intros ->. inversion R as [E|]. destruct n; [lia|discriminate]. }
  assert (cut_last b <> []) as Cn by (destruct b as [|x [|y b]]; [contradiction|discriminate|discriminate]).
  rewrite cut_last_app by exact Bn. eexists. set (cap := match notes t with Some m => _ | None => _ end). set (c3 := match cap with [] => [] | _ => _ end).
  exists (split_on nl (join [nl] [L "\begin{table}[htbp]"; L "\begin{tabular}{" ++ join (L "|") (map (fun _ => L " c ") (titles t)) ++ L "}"; join (L " & ") (titles t) ++ L " \\"])), (cut_last b), (split_on nl (join [nl] (c3 ++ [L "\end{table}"]))).
  split; [reflexivity|]. split; [|exact H]. rewrite <- app_assoc.
  rewrite rows_between; [|exact Cn|discriminate|discriminate|exact Nn].
  change (L "\begin{table}[htbp]" :: _) with ([L "\begin{table}[htbp]"; L "\begin{tabular}{" ++ join (L "|") (map (fun _ => L " c ") (titles t)) ++ L "}"; join (L " & ") (titles t) ++ L " \\"] ++ [L "\hline"]) at 1.
  rewrite split_lines by discriminate. rewrite <- app_assoc. f_equal. change (split_on nl (join [nl] [L "\hline"])) with [L "\hline"]. f_equal. f_equal.
  rewrite split_lines; [reflexivity|discriminate|]. intros E. apply app_eq_nil in E. destruct E; discriminate.
Qed.
Theorem deluxe_rows n t d : full n t -> 0 < n -> (with_errors t = true -> Forall data (columns t)) -> tidy "&"%char (L "\nodata") t -> tidy nl (L "\nodata") t -> details t = Some d ->
  exists text pre rows post, deluxe show t = Ok text /\ split_on nl text = pre ++ [L "\startdata"; []] ++ rows ++ [[]; L "\enddata"] ++ post /\ Forall2 (holds t) (seq 0 n) rows.
Proof.
  intros Fu N D T1 T2 Ed. destruct (body_rows n t Fu D) as (b & Eb & _ & R). destruct (rows_hold n t _ T1 T2 R) as (H & Nn). unfold deluxe. rewrite Eb, Ed.
  assert (b <> []) as Bn. { intros ->. inversion R as [E|]. destruct n; [lia|discriminate]. }
  assert (cut_last b <> []) as Cn by (destruct b as [|x [|y b]]; [contradiction|discriminate|discriminate]).
  rewrite (app_assoc _ _ b), cut_last_app by exact Bn. set (h := cut_last ([L "\begin{deluxetable*}{" ++ _ ++ _; _] ++ _)). set (m := map _ (number 0 d)). eexists.
  exists (split_on nl (join [nl] (h ++ [L "}"; []]))), (cut_last b), (split_on nl (join [nl] ([] :: m ++ [[]; L "\end{deluxetable*}"]))).
  split; [reflexivity|]. split; [|exact H]. rewrite <- (app_assoc (h ++ _) (cut_last b)).
  rewrite rows_between; [|exact Cn|intros E; apply app_eq_nil in E; destruct E; discriminate|discriminate|exact Nn].
  change [L "}"; []; L "\startdata"; []] with ([L "}"; []] ++ [L "\startdata"; []]). rewrite (app_assoc h).
  rewrite split_lines; [|intros E; apply app_eq_nil in E; destruct E; discriminate|discriminate]. rewrite <- app_assoc. f_equal.
Qed.
(** ** ascii *)
Definition comment (l : str) : bool := match l with a :: _ => Ascii.eqb a "#"%char | [] => false end.
Definition ascii_row (t : table) (i : nat) (cells : list str) : Prop :=
  if with_errors t then exists pairs, Forall2 (written2 i) (columns t) pairs /\ cells = List.concat pairs else Forall2 (written false (L "...") i) (columns t) cells.
Definition heads (t : table) : list str := List.concat (map (fun x => if with_errors t then [x; x ++ L "_err"] else [x]) (titles t)).
Lemma ascii_cells_row n t i : full n t -> i < n -> (with_errors t = true -> Forall data (columns t)) -> ascii_row t i (ascii_cells show mean t i).
Proof.
  intros Fu I' D. unfold ascii_row, ascii_cells. destruct (with_errors t).
  - specialize (D eq_refl). destruct Fu as (_ & Fu). rewrite flat_map_concat_map. eexists. split; [|reflexivity]. induction (columns t) as [|c cs IH]; [constructor|]. inversion Fu as [|? ? Hc Fu']; inversion D as [|? ? Dc D']; subst. cbn [map]. constructor; [|now apply IH].
    destruct c as [f v e|s]; [|contradiction]. destruct Hc as (Hv & He). unfold written2, plain. destruct (nth_error v i) as [y|] eqn:Ev; [|apply nth_error_None in Ev; lia]. rewrite (nth_error_nth _ _ None Ev).
    destruct (nth_error e i) as [p|] eqn:Ee; [|apply nth_error_None in Ee; lia]. exists y, p. auto.
  - assert (forall c, In c (columns t) -> written false (L "...") i c (plain show (L "...") i c)) as W by (intros c; apply plain_written with (n := n); auto).
    clear - W. induction (columns t) as [|c cs IH]; constructor; [apply W; now left|]. apply IH. intros; apply W; now right.
Qed.
Lemma filter_none {A} (f : A -> bool) l : Forall (fun x => f x = false) l -> filter f l = [].
Proof. induction 1 as [|x l H F' IH]; [reflexivity|]. cbn [filter]. now rewrite H. Qed.
Lemma filter_all {A} (f : A -> bool) l : Forall (fun x => f x = true) l -> filter f l = l.
Proof. induction 1 as [|x l H F' IH]; [reflexivity|]. cbn [filter]. now rewrite H, IH. Qed.
Lemma heads_eq t : (if with_errors t then flat_map (fun x => [x; x ++ L "_err"]) (titles t) else titles t) = heads t.
Proof. unfold heads. destruct (with_errors t); [apply flat_map_concat_map|]. induction (titles t) as [|x l IH]; [reflexivity|]. cbn [map List.concat app]. now rewrite <- IH. Qed.
(** [fine c t n]: no cell contains the separator or a newline, and no row begins with # *)
Definition fine (c : ascii) (n : nat) (t : table) : Prop :=
  forall i cells, i < n -> ascii_row t i cells -> Forall (without c) cells /\ Forall (without nl) cells /\ match cells with x :: _ => comment x = false | [] => True end.
(** the explanations: one line for each of the details, or the sources *)
Definition one_line (t : table) : Prop := Forall (without nl) (titles t) /\ match details t, notes t with Some d, _ => Forall (without nl) d | None, Some m => without nl m | None, None => False end.
Theorem ascii_rows c n t : full n t -> (with_errors t = true -> Forall data (columns t)) -> fine c n t -> one_line t -> c <> nl -> c <> "#"%char -> Forall (without c) (heads t) -> titles t <> [] ->
  exists text rows, ascii_table show mean [c] t = Ok text /\ filter (fun l => negb (comment l)) (split_on nl text) = rows /\
    Forall2 (fun i line => ascii_row t i (split_on c line)) (seq 0 n) rows /\
    exists first more, split_on nl text = ("#"%char :: first) :: more /\ split_on c first = heads t.
Proof.
  intros Fu D Fi (Lt & Ld) C1 C2 Hh Nt. unfold ascii_table. rewrite heads_eq, (full_rows n t Fu).
  set (det := match details t with Some d => Some _ | None => _ end).
  assert (exists dl, det = Some dl /\ Forall (fun l => comment l = true) dl /\ Forall (without nl) dl) as (dl & Ed & Cd & Nd).
  { assert (Forall (without nl) (heads t)) as Nh. { apply Forall_concat, Forall_map. eapply Forall_impl; [|exact Lt]. intros x Hx. cbv beta. destruct (with_errors t); repeat constructor; auto. unfold without. rewrite in_app_iff. intros [H|H]; [exact (Hx H)|].
      cbn [L list_ascii_of_string In] in H. repeat (destruct H as [H|H]; [discriminate|]). exact H. }
    unfold det. destruct (details t) as [d|].
    - eexists. split; [reflexivity|]. split; apply Forall_map, Forall_forall; intros [a b'] I'; [reflexivity|]. pose proof (in_combine_l _ _ _ _ I') as Ia. pose proof (in_combine_r _ _ _ _ I') as Ib. rewrite Forall_forall in Nh, Ld.
      specialize (Nh _ Ia). specialize (Ld _ Ib). unfold without in *. cbn [fst snd]. intros [H|H]; [discriminate|]. rewrite !in_app_iff in H. destruct H as [H|[H|H]]; [tauto| |tauto]. cbn [L list_ascii_of_string In] in H. repeat (destruct H as [H|H]; [discriminate|]). exact H.
    - destruct (notes t) as [m|]; [|contradiction]. cbn [option_map]. eexists. split; [reflexivity|]. split; repeat constructor. intros [H|H]; [discriminate|exact (Ld H)]. }
  rewrite Ed. set (cap := match caption t with Some (_ :: _) => _ | _ => _ end).
  assert (Forall (fun l => comment l = true) cap /\ Forall (without nl) cap) as (Cc & Nc).
  { unfold cap. destruct (caption t) as [[|a m]|]; [split; constructor| |split; constructor]. split; apply Forall_map; apply Forall_forall; intros x I'; [reflexivity|]. intros [H|H]; [discriminate|].
    revert H. change (without nl x). revert x I'. apply Forall_forall. apply PubComments.split_nl_no. }
  assert (Forall2 (fun i line => ascii_row t i (split_on c line) /\ without nl line /\ comment line = false) (seq 0 n) (map (fun i => join [c] (ascii_cells show mean t i)) (seq 0 n))) as R.
  { assert (forall i, In i (seq 0 n) -> i < n) as Li by (intros i I'; apply in_seq in I'; lia). revert Li. generalize (seq 0 n). intros l Li. induction l as [|i l IH]; [constructor|]. cbn [map]. constructor; [|apply IH; intros; apply Li; now right].
    assert (ascii_row t i (ascii_cells show mean t i)) as Ar by (apply (ascii_cells_row n); auto; apply Li; now left). assert (i < n) as Lin by (apply Li; now left).
    destruct (Fi i _ Lin Ar) as (F1 & F2 & F3).
    assert (ascii_cells show mean t i <> []) as Ne. { unfold ascii_cells. destruct Fu as (Nn & _). destruct (columns t) as [|[f v e|s] cs]; [contradiction| |]; destruct (with_errors t); discriminate. }
    split; [|split].
    - rewrite split_cells; auto.
    - apply no_char_join; [|exact F2]. intros [H|[]]. now apply C1.
    - destruct (ascii_cells show mean t i) as [|x r]; [contradiction|]. destruct x as [|a x]; [|destruct r; exact F3]. destruct r as [|y r]; [reflexivity|]. change (Ascii.eqb c "#" = false). apply Ascii.eqb_neq. exact C2. }
  set (rl := map _ (seq 0 n)) in *. eexists. exists rl. split; [reflexivity|].
  assert (without nl ("#"%char :: join [c] (heads t))) as N1. { intros [H|H]; [discriminate|]. revert H. apply no_char_join; [intros [H|[]]; now apply C1|]. apply Forall_concat, Forall_map. eapply Forall_impl; [|exact Lt]. intros x Hx. cbv beta.
    destruct (with_errors t); repeat constructor; auto. unfold without. rewrite in_app_iff. intros [H|H]; [exact (Hx H)|]. cbn [L list_ascii_of_string In] in H. repeat (destruct H as [H|H]; [discriminate|]). exact H. }
  assert (Forall (without nl) rl /\ Forall (fun l => negb (comment l) = true) rl) as (Nr & Cr).
  { clear - R. induction R as [|i l a b (A & B & C) R (IH1 & IH2)]; split; constructor; auto. now rewrite C. }
  assert (split_on nl (join [nl] (("#"%char :: join [c] (heads t)) :: cap ++ dl ++ rl)) = ("#"%char :: join [c] (heads t)) :: cap ++ dl ++ rl) as Sp.
  { apply split_own; [discriminate|]. constructor; [exact N1|]. rewrite !Forall_app. auto. }
  rewrite Sp. split; [|split].
  - cbn [filter comment]. rewrite Ascii.eqb_refl. cbn [negb]. rewrite !filter_app, (filter_all _ rl) by exact Cr. rewrite !filter_none; [reflexivity|eapply Forall_impl; [|exact Cd]|eapply Forall_impl; [|exact Cc]]; cbv beta; intros x Hx; now rewrite Hx.
  - clear - R. induction R as [|i l a b (A & B & C) R IH]; constructor; auto.
  - exists (join [c] (heads t)), (cap ++ dl ++ rl). split; [reflexivity|]. apply split_cells; [|exact Hh]. unfold heads. destruct (titles t) as [|x r]; [contradiction|]. destruct (with_errors t); discriminate.
Qed.
(** ** Refuted *)
(** a LaTeX table without objects has no \hline *)
Theorem latex_empty_refuted t text : full 0 t -> Forall (without nl) (titles t) -> latex show t = Ok text -> nth_error (split_on nl text) 3 = Some (L "\hli").
Proof.
  intros Fu N E. unfold latex, body in E. rewrite (full_rows 0 t Fu) in E. cbn [seq mapM map] in E. set (cap := match notes t with Some m => _ | None => _ end) in E. set (c3 := match cap with [] => [] | _ => _ end) in E.
  assert (Ok (join [nl] ([L "\begin{table}[htbp]"; L "\begin{tabular}{" ++ join (L "|") (map (fun _ => L " c ") (titles t)) ++ L "}"; join (L " & ") (titles t) ++ L " \\"; L "\hli"] ++ ([L "\end{tabular}"] ++ c3 ++ [L "\end{table}"]))) = Ok text) as E2.
  { rewrite <- E. destruct (with_errors t); reflexivity. }
  assert (text = join [nl] ([L "\begin{table}[htbp]"; L "\begin{tabular}{" ++ join (L "|") (map (fun _ => L " c ") (titles t)) ++ L "}"; join (L " & ") (titles t) ++ L " \\"; L "\hli"] ++ ([L "\end{tabular}"] ++ c3 ++ [L "\end{table}"]))) as -> by congruence.
  rewrite split_lines by discriminate. rewrite split_own; [reflexivity|discriminate|].
  assert (forall s : list str, without nl (join (L "|") (map (fun _ => L " c ") s))) as J. { intros s. apply no_char_join; [intros [H|[]]; discriminate|]. apply Forall_map, Forall_forall. intros x _ [H|[H|[H|[]]]]; discriminate. }
  assert (without nl (join (L " & ") (titles t))) as J2. { apply no_char_join; [|exact N]. intros H. cbn [L list_ascii_of_string In] in H. repeat (destruct H as [H|H]; [discriminate|]). exact H. }
  repeat constructor; unfold without in *; rewrite ?in_app_iff; intros H.
  - cbn [L list_ascii_of_string In] in H. repeat (destruct H as [H|H]; [discriminate|]). exact H.
  - destruct H as [H|[H|H]]; [| exact (J _ H)|]; cbn [L list_ascii_of_string In] in H; repeat (destruct H as [H|H]; [discriminate|]); exact H.
  - destruct H as [H|H]; [exact (J2 H)|]; cbn [L list_ascii_of_string In] in H; repeat (destruct H as [H|H]; [discriminate|]); exact H.
  - cbn [L list_ascii_of_string In] in H. repeat (destruct H as [H|H]; [discriminate|]). exact H.
Qed.
(** sources and errors exclude each other in LaTeX *)
Theorem latex_source_errors_refuted n t : full (S n) t -> with_errors t = true -> ~ Forall data (columns t) -> latex show t = Raise TypeError /\ deluxe show t = Raise TypeError.
Proof.
  intros Fu E D. assert (body show t = Raise TypeError) as B; [|unfold latex, deluxe; rewrite B; auto].
  unfold body. rewrite (full_rows _ t Fu), E. cbn [seq mapM]. destruct Fu as (_ & Fu). assert (with_err show 0 (columns t) = Raise TypeError) as ->; [|reflexivity].
  induction (columns t) as [|[f v e|s] cs IH]; [exfalso; apply D; constructor| |reflexivity]. inversion Fu as [|? ? Hve Fu']; subst. destruct Hve as (Hv & He). cbn [with_err]. rewrite IH; [|exact Fu'|intros H; apply D; now constructor].
  destruct v as [|[y|] v]; [discriminate| |reflexivity]. destruct e as [|[u w] e]; [discriminate|]. reflexivity.
Qed.
(** without details and sources there is no ascii table, without details no deluxetable *)
Theorem ascii_plain_refuted sep t : details t = None -> notes t = None -> ascii_table show mean sep t = Raise NameError.
Proof. intros D N. unfold ascii_table. now rewrite D, N. Qed.
Theorem deluxe_plain_refuted n t : full n t -> (with_errors t = true -> Forall data (columns t)) -> details t = None -> deluxe show t = Raise TypeError.
Proof. intros Fu D E. destruct (body_rows n t Fu D) as (b & Eb & _). unfold deluxe. now rewrite Eb, E. Qed.
(** with errors the details stand beside the wrong titles *)
Theorem ascii_details_refuted sep t a b ts c d ds : with_errors t = true -> titles t = a :: b :: ts -> details t = Some (c :: d :: ds) -> Forall (without nl) (titles t) -> Forall (without nl) (c :: d :: ds) -> without nl sep -> full 0 t -> caption t = None ->
  exists text, ascii_table show mean sep t = Ok text /\ nth_error (split_on nl text) 2 = Some (L "#" ++ (a ++ L "_err") ++ L ": " ++ d).
Proof.
  intros E Et Ed Nt Nd Ns Fu Ec. eexists. split; [unfold ascii_table; rewrite E, Et, Ed, Ec, (full_rows 0 t Fu); reflexivity|]. cbn [seq map app flat_map combine fst snd].
  match goal with |- nth_error (split_on nl (join [nl] (?x :: _))) 2 = _ => set (h := x) end.
  assert (forall k : list str, nth_error (split_on nl (join [nl] (h :: ("#"%char :: a ++ L ": " ++ c) :: ("#"%char :: (a ++ L "_err") ++ L ": " ++ d) :: k))) 2 = Some (L "#" ++ (a ++ L "_err") ++ L ": " ++ d)) as G; [|apply G].
  rewrite Et in Nt. inversion Nt as [|? ? Na Nt2]; inversion Nt2 as [|? ? Nb Nts]; inversion Nd as [|? ? Nc Nd2]; inversion Nd2 as [|? ? Ndd Nds]; subst.
  assert (Forall (without nl) [h; "#"%char :: a ++ L ": " ++ c; "#"%char :: (a ++ L "_err") ++ L ": " ++ d]) as W.
  { assert (forall x, without nl x -> without nl (x ++ L "_err")) as We. { intros x Hx. unfold without in *. rewrite in_app_iff. intros [H|H]; [exact (Hx H)|]. cbn [L list_ascii_of_string In] in H. repeat (destruct H as [H|H]; [discriminate|]). exact H. }
    constructor; [|constructor; [|constructor; [|constructor]]].
    - intros [H|H]; [discriminate|]. revert H. apply no_char_join; [exact Ns|]. repeat (constructor; auto). rewrite flat_map_concat_map. apply Forall_concat, Forall_map. eapply Forall_impl; [|exact Nts]. cbv beta. intros x Hx. repeat constructor; auto.
    - unfold without in *. intros [H|H]; [discriminate|]. rewrite !in_app_iff in H. destruct H as [H|[[H|[H|[]]]|H]]; [tauto|discriminate|discriminate|tauto].
    - specialize (We a Na). revert We. generalize (a ++ L "_err"). intros ae We. unfold without in *. intros [H|H]; [discriminate|]. rewrite !in_app_iff in H. destruct H as [H|[[H|[H|[]]]|H]]; [tauto|discriminate|discriminate|tauto]. }
  intros k. change (h :: ("#"%char :: a ++ L ": " ++ c) :: ("#"%char :: (a ++ L "_err") ++ L ": " ++ d) :: k) with ([h; "#"%char :: a ++ L ": " ++ c; "#"%char :: (a ++ L "_err") ++ L ": " ++ d] ++ k).
  destruct k as [|x k]; [rewrite app_nil_r, split_own by (discriminate || exact W); reflexivity|]. rewrite split_lines by discriminate. rewrite split_own by (discriminate || exact W). reflexivity.
Qed.
(** sorting fails, and so does the message for an unknown format *)
Theorem sort_refuted format t : sorted t = true -> Forall data (columns t) -> List.length (titles t) = List.length (columns t) -> details t = None -> table_text show mean format t = Raise NameError.
Proof.
  intros S D Lt Ed. unfold table_text. rewrite Lt, Nat.eqb_refl, Ed, S. cbn [negb andb]. assert (existsb is_source (columns t) = false) as ->; [|reflexivity].
  clear - D. induction D as [|[f v e|s] cs Dc D IH]; [reflexivity|exact IH|contradiction].
Qed.
Theorem unknown_format_refuted format t : sorted t = false -> List.length (titles t) = List.length (columns t) -> details t = None -> firstn 5 format <> L "ascii" -> format <> L "latex" -> format <> L "deluxetable" ->
  table_text show mean format t = Raise AttributeError.
Proof.
  intros S Lt Ed N1 N2 N3. unfold table_text. rewrite Lt, Nat.eqb_refl, Ed, S. cbn [negb andb].
  assert (forall p s, prefix_b p s = true -> firstn (List.length p) s = p) as P. { induction p as [|a p IH]; intros [|b s]; cbn; try discriminate; auto. destruct (Ascii.eqb a b) eqn:E; [|discriminate]. apply Ascii.eqb_eq in E. subst. cbn. intros H. now rewrite IH. }
  destruct (prefix_b (L "ascii") format) eqn:E; [apply P in E; contradiction|].
  destruct (str_eqb format (L "latex")) eqn:E2; [apply IoColumns.str_eqb_spec in E2; contradiction|]. destruct (str_eqb format (L "deluxetable")) eqn:E3; [apply IoColumns.str_eqb_spec in E3; contradiction|]. reflexivity.
Qed.
(** the formats reach their writers; ascii(x) separates with x *)
Theorem formats c t : sorted t = false -> List.length (titles t) = List.length (columns t) -> (forall d, details t = Some d -> List.length d = List.length (columns t)) ->
  table_text show mean (L "latex") t = latex show t /\ table_text show mean (L "deluxetable") t = deluxe show t /\
  table_text show mean (L "ascii") t = ascii_table show mean (L " ") t /\ table_text show mean (L "ascii(" ++ [c] ++ L ")") t = ascii_table show mean [c] t.
Proof.
  intros S Lt Ld. unfold table_text. rewrite Lt, Nat.eqb_refl, S. cbn [negb andb]. destruct (details t) as [d|]; [rewrite (Ld d eq_refl), Nat.eqb_refl|]; repeat split; reflexivity.
Qed.
End Text.
(** ** Instance: numbers as formats *)
Definition sh (_ : unit) (n : nat) : str := decimal n.
Definition two_objects (e : bool) (d : option (list str)) : table nat unit :=
  Table [L "mass"; L "size"] d (Some (L "Two.")) e [Data tt [Some 5; None] [(1, 3); (2, 2)]; Data tt [Some 7; Some 12] [(0, 4); (1, 1)]] None false.
Definition avg (p : nat * nat) : nat := (fst p + snd p) / 2.
Example two_latex : latex sh (two_objects true None) = Ok (join [nl] [L "\begin{table}[htbp]"; L "\begin{tabular}{ c | c }"; L "mass & size \\"; L "\hline"; L "5^{+1}_{-3} & 7^{+0}_{-4}\\"; L "\nodata & 12^{+1}_{-1}"; L "\end{tabular}"; L "\caption{Two.}"; L "\end{table}"]).
Proof. vm_compute. reflexivity. Qed.
Example two_ascii : ascii_table sh avg (L ",") (two_objects false (Some [L "in g"; L "in m"])) = Ok (join [nl] [L "#mass,size"; L "#Two."; L "#mass: in g"; L "#size: in m"; L "5,7"; L "...,12"]).
Proof. vm_compute. reflexivity. Qed.
Example two_full e d : full 2 (two_objects e d) /\ Forall data (columns (two_objects e d)).
Proof. split; [split; [discriminate|repeat constructor]|repeat constructor]. Qed.
Example two_tidy a d e : In a [nl; "&"%char] -> tidy sh a (L "\nodata") (two_objects e d).
Proof.
  intros A i c x C W. assert (nat_of_ascii a < 48) as La by (destruct A as [<-|[<-|[]]]; cbv; lia).
  assert (forall s : str, ~ In nl s -> ~ In "&"%char s -> ~ In a s) as G by (intros s H1 H2; destruct A as [<-|[<-|[]]]; assumption).
  assert (forall n, ~ In a (decimal n)) as Dn by (intros n; apply PubComments.decimal_no; now left).
  assert (forall s : str, existsb (Ascii.eqb nl) s = false -> existsb (Ascii.eqb "&"%char) s = false -> ~ In a s) as K.
  { intros s H1 H2. apply G; intros I'; [assert (existsb (Ascii.eqb nl) s = true) by (apply existsb_exists; eexists; split; [exact I'|apply Ascii.eqb_refl])|assert (existsb (Ascii.eqb "&"%char) s = true) by (apply existsb_exists; eexists; split; [exact I'|apply Ascii.eqb_refl])]; congruence. }
  destruct c as [f v er|s].
  - destruct W as [(_ & ->)|(y & u & w & _ & _ & ->)]; [apply K; reflexivity|]. unfold without, sh. destruct (with_errors (two_objects e d)); rewrite !in_app_iff.
    + intros [H|[H|[H|[H|[H|H]]]]]; try (eapply Dn; exact H); revert H; apply K; reflexivity.
    + intros [H|[]]. exact (Dn _ H).
  - exfalso. destruct C as [C|[C|[]]]; discriminate.
Qed.
Example two_fine d : fine sh avg ","%char 2 (two_objects false d).
Proof.
  intros i cells I' W. assert (forall a, In a [","%char; nl] -> Forall (without a) cells) as G.
  { intros a A. apply Forall_forall. intros x Ix. destruct (f2_in_r _ _ _ W x Ix) as (c & C & Wc). assert (nat_of_ascii a < 48) as La by (destruct A as [<-|[<-|[]]]; cbv; lia).
    destruct c as [f v er|s]; [|destruct C as [C|[C|[]]]; discriminate]. destruct Wc as [(_ & ->)|(y & u & w & _ & _ & ->)]; [intros [H|[H|[H|[]]]]; subst a; destruct A as [A|[A|[]]]; discriminate|].
    rewrite app_nil_r. apply PubComments.decimal_no. now left. }
  split; [apply G; now left|]. split; [apply G; right; now left|]. inversion W as [|c x cs xs Wc W' E1 E2]; subst. destruct Wc as [(_ & ->)|(y & u & w & _ & _ & ->)]; [reflexivity|].
  rewrite app_nil_r. pose proof (PubComments.decimal_no "#"%char y) as D. unfold sh. destruct (decimal y) as [|b r]; [reflexivity|]. cbn [comment]. apply Ascii.eqb_neq. intros ->. apply D; [left; cbv; lia|now left].
Qed.
Example two_line e m : one_line (two_objects e (Some [L "in g"; m])) <-> without nl m.
Proof.
  assert (forall s : str, existsb (Ascii.eqb nl) s = false -> without nl s) as G. { intros s H I'. assert (existsb (Ascii.eqb nl) s = true) by (apply existsb_exists; eexists; split; [exact I'|apply Ascii.eqb_refl]); congruence. }
  split; [intros (_ & H); cbn [details two_objects] in H; inversion H as [|? ? _ H2]; inversion H2; assumption|]. intros H. split; cbn [titles details two_objects]; repeat constructor; try exact H; apply G; reflexivity.
Qed.
