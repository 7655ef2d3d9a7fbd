(** * TxtProof: tables with a line of field names (C119) *)
From Coq Require Import List Bool String Ascii Arith ZArith Lia Permutation.
From Verif Require Import PyBase PubModel PubProps IoModel IoColumns IoFiles RegModel RegProof SexModel SexProof TxtModel.
Import ListNotations.

(** ** Specification *)
(** text with words and white space around them *)
Inductive spaced : list str -> str -> Prop :=
| Sp0 b : Forall space b -> spaced [] b
| Sp1 b w a r ws : Forall space b -> word w -> space a -> spaced ws (a :: r) -> spaced (w :: ws) (b ++ w ++ a :: r)
| Spl b w : Forall space b -> word w -> spaced [w] (b ++ w).
(** a field: name, code, expression *)
Notation field := (str * str * option str)%type.
Definition fname (f : field) : str := fst (fst f).
Definition fcode (f : field) : str := snd (fst f).
Definition written (f : field) : str := fname f ++ L ":" ++ fcode f ++ match snd f with None => [] | Some e => L ":" ++ e end.
Definition plain_text (com : ascii) (s : str) : Prop := Forall (fun a => ~ space a /\ a <> com /\ a <> ":"%char) s.
Definition good_field (com : ascii) (f : field) : Prop := plain_text com (fname f) /\ plain_text com (fcode f) /\ match snd f with None => True | Some e => plain_text com e end.
Definition is_loaded (f : field) : bool := match snd f with None => true | Some _ => false end.
(** the lines of a file and the rows of words in it *)
Inductive data (com : ascii) : list (list str) -> list str -> Prop :=
| Dnil : data com [] []
| Dskip b c rows ls : Forall space b -> (c = [] \/ exists t, c = com :: t) -> ~ In com b -> data com rows ls -> data com rows ((b ++ c) :: ls)
| Drow t ws c rows ls : ws <> [] -> spaced ws t -> ~ In com t -> (c = [] \/ exists t, c = com :: t) -> data com rows ls -> data com (ws :: rows) ((t ++ c) :: ls).
Definition text_of (lines : list str) : str := List.concat (map (fun l => l ++ [nl]) lines).

Lemma words_lead b r : Forall space b -> words [] (b ++ r) = words [] r.
Proof. induction b as [|a b I]; intros F; [reflexivity|]. inversion F as [|? ? Fa Fb]; subst. cbn [app]. rewrite words_space by exact Fa. now apply I. Qed.
Lemma spaced_words ws s : spaced ws s -> words [] s = ws.
Proof.
  intros H. induction H as [b F|b w a r ws F W A H I|b w F W].
  - now apply words_nil.
  - rewrite words_lead by exact F. rewrite words_cons by trivial. now rewrite <- I, words_space by exact A.
  - rewrite words_lead by exact F. now apply words_one.
Qed.
Lemma strip_parts s : exists x y, s = x ++ strip s ++ y /\ Forall space x /\ Forall space y.
Proof.
  unfold strip, lstrip, rstrip. destruct (span is_space s) as (x, s1) eqn:E. apply span_spec in E. destruct E as (-> & Fx & _). cbn [snd]. destruct (span is_space (rev s1)) as (y, s2) eqn:E2. apply span_spec in E2. destruct E2 as (E2 & Fy & _). cbn [snd]. exists x, (rev y). split; [|split; [exact Fx|now apply Forall_rev]]. f_equal. apply (f_equal (@rev ascii)) in E2. rewrite rev_involutive, rev_app_distr in E2. exact E2.
Qed.
Lemma words_strip s : words [] (strip s) = words [] s.
Proof. destruct (strip_parts s) as (x & y & E & Fx & Fy). rewrite E at 2. rewrite words_lead, words_app_spaces by trivial. reflexivity. Qed.
Lemma row_words_none com l : row_words com None l = words [] (before_comment com l).
Proof. unfold row_words. rewrite <- (words_strip (before_comment com l)). destruct (strip (before_comment com l)); reflexivity. Qed.
Lemma before_tail com t c : ~ In com t -> (c = [] \/ exists u, c = com :: u) -> com <> nl -> exists y, before_comment com ((t ++ c) ++ [nl]) = t ++ y /\ Forall space y.
Proof.
  intros N [->|(u & ->)] Nc; unfold before_comment.
  - rewrite app_nil_r, find_no; [exists [nl]; split; [reflexivity|repeat constructor; exact nl_space]|]. intros X. apply in_app_iff in X. destruct X as [X|[X|[]]]; [contradiction|congruence].
  - rewrite <- app_assoc. cbn [app]. rewrite find_here by exact N. exists []. now rewrite app_nil_r.
Qed.
Lemma text_lines ls : Forall (fun l => ~ In nl l) ls -> file_lines (text_of ls) = map (fun l => l ++ [nl]) ls.
Proof.
  unfold text_of. induction ls as [|l ls I]; intros F; [reflexivity|]. inversion F as [|? ? Fl Fr]; subst. cbn [map List.concat]. rewrite <- app_assoc. cbn [app]. destruct l as [|a l]; [|rewrite file_lines_line by (trivial; discriminate); now rewrite I].
  cbn [app]. cbn [file_lines]. change (nl =a nl) with true. cbv iota. now rewrite I.
Qed.

Section Txt.
Variable cell : Type.
Notation column := (column cell).
Variable valid : str -> bool.
Variable conv : str -> str -> option cell.
Variable cast : str -> cell -> option cell.
Variable ev : str -> list (str * column) -> @res (value cell).
Variable order : list (str * str) -> list (str * str).
Hypothesis order_perm : forall l, Permutation (order l) l.
Notation run := (loadtxt_text_fields cell valid conv cast ev order).

(** the columns of the file *)
Definition read_as (fs : list field) (rows : list (list str)) (env : list (str * column)) : Prop :=
  map fst env = map fname (filter is_loaded fs) /\ Forall (fun ws => List.length ws = List.length (filter is_loaded fs)) rows /\
  forall j f n col, nth_error (filter is_loaded fs) j = Some f -> nth_error env j = Some (n, col) -> Forall2 (fun ws x => exists w, nth_error ws j = Some w /\ conv (fcode f) w = Some x) rows col.
(** the column a value makes *)
Definition fills (n : nat) (c : str) (v : value cell) (col : column) : Prop :=
  match v with
  | One _ x => List.length col = n /\ Forall (fun y => cast c x = Some y) col
  | Col _ l => (List.length l = n /\ Forall2 (fun x y => cast c x = Some y) l col) \/ (exists x, l = [x] /\ List.length col = n /\ Forall (fun y => cast c x = Some y) col)
  end.

Definition lt_of (fs : list field) : list (str * str) := map fst fs.
Lemma plain_no com s : plain_text com s -> ~ In colon s.
Proof. intros F X. unfold plain_text in F. rewrite Forall_forall in F. now apply (F _ X). Qed.
Definition nocolon (f : field) : Prop := ~ In colon (fname f) /\ ~ In colon (fcode f) /\ match snd f with None => True | Some e => ~ In colon e end.
Lemma good_nocolon com f : good_field com f -> nocolon f.
Proof. intros (A & B & C). split; [now apply (plain_no com)|]. split; [now apply (plain_no com)|]. destruct (snd f); [now apply (plain_no com)|trivial]. Qed.
Lemma written_split f : nocolon f -> split_on colon (written f) = fname f :: fcode f :: match snd f with None => [] | Some e => [e] end.
Proof.
  destruct f as ((n, c), [e|]); intros (N & C & E); unfold written, fname, fcode in *; cbn [fst snd] in *; change (L ":") with [colon]; cbn [app]; rewrite split_one by exact N.
  - rewrite split_one by exact C. rewrite split_no by exact E. reflexivity.
  - rewrite app_nil_r. rewrite split_no by exact C. reflexivity.
Qed.
Definition exprs_of (fs : list field) : list (str * str) := flat_map (fun f => match snd f with None => [] | Some e => [(fname f, e)] end) fs.
Lemma put_new {A} k (v : A) d : ~ In k (map fst d) -> put k v d = d ++ [(k, v)].
Proof. induction d as [|(k', v') d I]; intros N; [reflexivity|]. cbn [put app]. cbn [map fst In] in N. destruct (str_eqb k k') eqn:E; [apply eqs in E; subst; tauto|]. rewrite I by tauto. reflexivity. Qed.
Lemma exprs_names fs x : In x (map fst (exprs_of fs)) -> In x (map fname fs).
Proof. unfold exprs_of. rewrite in_map_iff. intros ((k, e) & <- & H). apply in_flat_map in H. destruct H as (f & F & H). destruct (snd f); [|contradiction]. destruct H as [H|[]]. injection H as <- <-. cbn [fst]. apply (in_map fname fs f F). Qed.
Lemma parse_good fs : Forall nocolon fs -> forall d, NoDup (map fst (exprs d) ++ map fname fs) ->
  parse_fields (map written fs) d = Ok (DT (full d ++ map fst fs) (load d ++ map fst (filter is_loaded fs)) (exprs d ++ exprs_of fs)).
Proof.
  induction fs as [|f fs I]; intros F d ND; cbn [map parse_fields filter].
  - unfold exprs_of. cbn [flat_map]. rewrite !app_nil_r. now destruct d.
  - inversion F as [|? ? Ff Fr]; subst. rewrite (written_split f Ff). destruct f as ((n, c), [e|]); unfold fname, fcode, is_loaded, exprs_of in *; cbn [fst snd flat_map] in *.
    + assert (Nn : ~ In n (map fst (exprs d))). { apply NoDup_remove_2 in ND. intros X. apply ND. apply in_app_iff. now left. } rewrite put_new by exact Nn. rewrite I; cbn [full load exprs]; [now rewrite <- !app_assoc|exact Fr|].
      rewrite map_app. cbn [map fst]. rewrite <- app_assoc. exact ND.
    + rewrite I; cbn [full load exprs]; [now rewrite <- !app_assoc|exact Fr|]. now apply NoDup_remove_1 in ND.
Qed.
Lemma check_good l : forall seen, Forall (fun x => valid (snd x) = true) l -> NoDup (map fst l) -> (forall n, In n (map fst l) -> ~ In n seen) -> check valid seen l = Ok tt.
Proof.
  induction l as [|(n, c) l I]; intros seen F ND H; [reflexivity|]. inversion F as [|? ? Fc Fr]; subst. inversion ND as [|? ? Nn Nr]; subst. cbn [check]. cbn [snd] in Fc. rewrite Fc. cbn [negb].
  assert (E : existsb (str_eqb n) seen = false). { apply not_true_iff_false. intros X. apply existsb_exists in X. destruct X as (m & M & E). apply eqs in E. subst m. apply (H n); [now left|exact M]. }
  rewrite E. apply I; trivial. intros m M [<-|S]; [contradiction|]. apply (H m); [now right|exact S].
Qed.
Lemma without_app c s t : without c (s ++ t) = without c s ++ without c t.
Proof. unfold without. now rewrite filter_app. Qed.
Lemma spaced_chars ws s (P : ascii -> Prop) : spaced ws s -> (forall a, space a -> P a) -> Forall (Forall P) ws -> Forall P s.
Proof.
  intros H S. assert (B : forall b, Forall space b -> Forall P b) by (intros b F; eapply Forall_impl; [|exact F]; exact S).
  induction H as [b F|b w a r ws F W A H I|b w F W]; intros G; [now apply B| |].
  - inversion G; subst. apply Forall_app. split; [now apply B|]. apply Forall_app. split; trivial. now apply I.
  - inversion G; subst. apply Forall_app. split; [now apply B|trivial].
Qed.
Lemma spaced_no c ws s : ~ space c -> spaced ws s -> Forall (fun w => ~ In c w) ws -> ~ In c s.
Proof. intros N H F X. assert (G : Forall (fun a => a <> c) s). { apply (spaced_chars ws); trivial; [intros a A ->; contradiction|]. eapply Forall_impl; [|exact F]. intros w W. apply Forall_forall. intros a A ->. contradiction. } rewrite Forall_forall in G. exact (G _ X eq_refl). Qed.
Lemma written_no com f : good_field com f -> com <> ":"%char -> ~ In com (written f).
Proof.
  intros (A & B & C) N X. unfold written in X. change (L ":") with [colon] in X. apply in_app_iff in X. destruct X as [X|X]; [unfold plain_text in A; rewrite Forall_forall in A; now destruct (A _ X) as (_ & X' & _)|]. cbn [app] in X. destruct X as [X|X]; [unfold colon in X; congruence|]. apply in_app_iff in X. destruct X as [X|X]; [unfold plain_text in B; rewrite Forall_forall in B; now destruct (B _ X) as (_ & X' & _)|]. destruct (snd f); [|contradiction]. cbn [app] in X. destruct X as [X|X]; [unfold colon in X; congruence|]. unfold plain_text in C; rewrite Forall_forall in C; now destruct (C _ X) as (_ & X' & _).
Qed.
(** the words of the line of fields *)
Lemma header_words com h ws : com <> nl -> ~ space com -> spaced ws h -> Forall (fun w => ~ In com w) ws -> fields_of com None ((com :: h) ++ [nl]) = ws.
Proof.
  intros Nc Ns H F. unfold fields_of, splitl. cbn [app]. change (com :: h ++ [nl]) with ([com] ++ h ++ [nl]). rewrite !without_app. rewrite (without_no com h) by now apply (spaced_no com ws h). rewrite (without_no com [nl]) by (intros [X|[]]; congruence). unfold without at 1. cbn [filter]. rewrite (proj2 (eqa com com) eq_refl). cbn [negb app]. rewrite words_app_spaces by (repeat constructor; exact nl_space). now apply spaced_words.
Qed.
(** reading the rows *)
Lemma load_data com lt rows lines : com <> nl -> data com rows lines -> loadtxt cell conv com None lt (map (fun l => l ++ [nl]) lines) = fold_right (fun ws r => bindr (conv_row cell conv lt ws) (fun x => bindr r (fun xs => Ok (x :: xs)))) (Ok []) rows.
Proof.
  intros Nc D. induction D as [|b c rows ls F C N D I|t ws c rows ls Nw S N C D I]; cbn [map loadtxt fold_right]; [reflexivity| |]; rewrite row_words_none.
  - destruct (before_tail com b c N C Nc) as (y & -> & Fy). rewrite words_spaces by (apply Forall_app; now split). exact I.
  - destruct (before_tail com t c N C Nc) as (y & -> & Fy). rewrite words_app_spaces by exact Fy. rewrite (spaced_words _ _ S). destruct ws as [|w ws]; [congruence|]. now rewrite I.
Qed.
Lemma conv_row_ok lt : forall ws xs, Forall2 (fun (p : (str * str) * str) x => conv (snd (fst p)) (snd p) = Some x) (combine lt ws) xs -> List.length lt = List.length ws -> conv_row cell conv lt ws = Ok xs.
Proof.
  induction lt as [|(n, c) lt I]; intros [|w ws] xs F E; try discriminate; cbn [combine] in F; inversion F as [|? x ? xs' Fx Fr]; subst; cbn [conv_row]; [reflexivity|]. cbn [fst snd] in Fx. rewrite Fx. rewrite (I ws xs' Fr) by (injection E; trivial). reflexivity.
Qed.
(** the loaded rows, and their columns *)
Lemma columns_nth lt : forall rows j n c, nth_error lt j = Some (n, c) -> Forall (fun r : list cell => List.length r = List.length lt) rows ->
  exists col, nth_error (columns cell lt rows) j = Some (n, col) /\ Forall2 (fun r x => nth_error r j = Some x) rows col.
Proof.
  induction lt as [|(n0, c0) lt I]; intros rows j n c H F; [destruct j; discriminate|]. destruct j as [|j].
  - injection H as -> ->. eexists. split; [reflexivity|]. clear I. induction rows as [|r rows J]; [constructor|]. inversion F as [|? ? Fr Fs]; subst. destruct r as [|x r]; [discriminate|]. cbn [flat_map app]. constructor; [reflexivity|now apply J].
  - cbn [nth_error] in H. destruct (I (map (@tl cell) rows) j n c H) as (col & C & G).
    + apply Forall_map. eapply Forall_impl; [|exact F]. intros [|x r] E; [discriminate|]. cbn in *. now injection E.
    + exists col. split; [exact C|]. clear - G F. revert col G. induction rows as [|r rows J]; intros col G; inversion G as [|? x ? col' Gx Gr]; subst; constructor; inversion F as [|? ? Fr Fs]; subst; [|now apply J]. destruct r as [|y r]; [destruct j; discriminate|exact Gx].
Qed.
Lemma columns_keys lt : forall rows, map fst (columns cell lt rows) = map fst lt.
Proof. induction lt as [|(n, c) lt I]; intros rows; [reflexivity|]. cbn [columns map fst]. now rewrite I. Qed.
Lemma forall2_nth {A B} (P : A -> B -> Prop) l k : Forall2 P l k -> forall i a, nth_error l i = Some a -> exists b, nth_error k i = Some b /\ P a b.
Proof. induction 1 as [|a b l k H F I]; intros [|i] c E; try discriminate; [injection E as <-; now exists b|now apply I]. Qed.
Lemma forall2_eq {A B} (P : A -> B -> Prop) l : (forall a b b', P a b -> P a b' -> b = b') -> forall k k', Forall2 P l k -> Forall2 P l k' -> k = k'.
Proof. intros U. induction l as [|a l I]; intros k k' F G; inversion F; inversion G; subst; [reflexivity|]. f_equal; eauto. Qed.
Lemma nth_error_ext {A} (l k : list A) : (forall i, nth_error l i = nth_error k i) -> l = k.
Proof. revert k. induction l as [|a l I]; intros [|b k] H; trivial; [specialize (H 0); discriminate|specialize (H 0); discriminate|]. pose proof (H 0) as H0. injection H0 as ->. f_equal. apply I. intros i. exact (H (S i)). Qed.
(** the model's rows and columns are the ones described *)
Lemma rows_exist fs rows env : filter is_loaded fs <> [] -> read_as fs rows env -> exists xss,
  fold_right (fun ws r => bindr (conv_row cell conv (map fst (filter is_loaded fs)) ws) (fun x => bindr r (fun xs => Ok (x :: xs)))) (Ok []) rows = Ok xss /\ List.length xss = List.length rows /\ columns cell (map fst (filter is_loaded fs)) xss = env.
Proof.
  intros N0 (Ek & Fl & R). set (lf := filter is_loaded fs) in *. assert (Le : List.length env = List.length lf) by (rewrite <- (map_length fst env), Ek; apply map_length).
  assert (X : exists xss, Forall2 (fun ws xs => List.length xs = List.length lf /\ Forall2 (fun (p : (str * str) * str) x => conv (snd (fst p)) (snd p) = Some x) (combine (map fst lf) ws) xs) rows xss).
  { clearbody lf. assert (Y : forall i ws, nth_error rows i = Some ws -> forall j f, nth_error lf j = Some f -> exists w x, nth_error ws j = Some w /\ conv (fcode f) w = Some x).
    { intros i ws Hi j f Hj. assert (Hj' : nth_error env j <> None) by (apply nth_error_Some; rewrite Le; apply nth_error_Some; rewrite Hj; discriminate). destruct (nth_error env j) as [(n, col)|] eqn:Ej; [|congruence]. destruct (forall2_nth _ _ _ (R j f n col Hj Ej) i ws Hi) as (x & _ & w & W1 & W2). eauto. }
    clear R Ek Le env N0. induction rows as [|ws rows I]; [exists []; constructor|]. inversion Fl as [|? ? Fw Fr]; subst. destruct I as (xss & I); [exact Fr|intros i; exact (Y (S i))|]. pose proof (Y 0 ws eq_refl) as Y0.
    assert (Z : exists xs, List.length xs = List.length lf /\ Forall2 (fun (p : (str * str) * str) x => conv (snd (fst p)) (snd p) = Some x) (combine (map fst lf) ws) xs).
    { clear - Y0 Fw. revert ws Fw Y0. induction lf as [|f lf I]; intros [|w ws] Fw Y0; try discriminate; [exists []; split; constructor|]. destruct (Y0 0 f eq_refl) as (w' & x & E & C). injection E as <-. destruct (I ws) as (xs & Lx & Fx); [now injection Fw|intros j; exact (Y0 (S j))|]. exists (x :: xs). split; [cbn; now rewrite Lx|]. cbn [map combine]. constructor; [exact C|exact Fx]. }
    destruct Z as (xs & Z). exists (xs :: xss). now constructor. }
  destruct X as (xss & X). exists xss. split; [|split].
  - clear - X Fl. induction X as [|ws xs rows xss (Lx & Hx) X I]; [reflexivity|]. inversion Fl as [|? ? Fw Fr]; subst. cbn [fold_right]. rewrite (conv_row_ok (map fst lf) ws xs Hx) by (rewrite map_length; symmetry; exact Fw). cbn [bindr]. rewrite I by exact Fr. reflexivity.
  - symmetry. clear - X. induction X; cbn; congruence.
  - assert (Fx : Forall (fun r : list cell => List.length r = List.length (map fst lf)) xss) by (rewrite map_length; clear - X; induction X as [|? ? ? ? (Lx & _) _ I]; constructor; trivial).
    apply nth_error_ext. intros j. destruct (nth_error lf j) as [f|] eqn:Hj.
    + destruct f as ((n, c), e). assert (Hl : nth_error (map fst lf) j = Some (n, c)) by now rewrite nth_error_map, Hj. destruct (columns_nth _ _ _ _ _ Hl Fx) as (col & C & G). rewrite C. assert (Hj' : nth_error env j <> None) by (apply nth_error_Some; rewrite Le; apply nth_error_Some; rewrite Hj; discriminate). destruct (nth_error env j) as [(n', col')|] eqn:Ej; [|congruence].
      assert (n' = n). { assert (E : nth_error (map fst env) j = nth_error (map fname lf) j) by now rewrite Ek. rewrite !nth_error_map, Ej, Hj in E. now injection E. } subst n'. do 2 f_equal. pose proof (R j _ n col' Hj Ej) as Rj. unfold fcode in Rj. cbn [fst snd] in Rj.
      clear - X G Rj Hl. revert col col' G Rj. induction X as [|ws xs rows xss (Lx & Hx) X I]; intros col col' G Rj; inversion G as [|? y ? col1 Gy Gr]; inversion Rj as [|? z ? col2 (w & Wj & Wc) Rr]; subst; [reflexivity|]. f_equal; [|now apply I]. assert (Hc : nth_error (combine (map fst lf) ws) j = Some ((n, c), w)). { clear - Hl Wj. revert ws j Hl Wj. induction (map fst lf) as [|p l I]; intros [|w' ws] [|j] A B; try discriminate; cbn in *; [congruence|now apply I]. }
      destruct (forall2_nth _ _ _ Hx _ _ Hc) as (x & Xj & Xc). cbn [fst snd] in Xc. congruence.
    + rewrite (proj2 (nth_error_None _ _)); [symmetry; apply nth_error_None; rewrite Le; now apply nth_error_None|]. rewrite <- (map_length fst (columns cell _ _)), columns_keys, !map_length. now apply nth_error_None.
Qed.
(** assigning *)
Lemma cast_all_spec c l col : cast_all cell cast c l = Ok col <-> Forall2 (fun x y => cast c x = Some y) l col.
Proof.
  revert col. induction l as [|x l I]; intros col; cbn [cast_all]; [split; intros H; [injection H as <-; constructor|now inversion H]|]. split; intros H.
  - destruct (cast c x) as [y|] eqn:E; [|discriminate]. destruct (cast_all cell cast c l) as [ys| |] eqn:E2; try discriminate. cbn [bindr] in H. injection H as <-. constructor; [exact E|now apply I].
  - inversion H as [|? y ? ys Hy Hr]; subst. rewrite Hy. apply I in Hr. now rewrite Hr.
Qed.
Lemma repeat_forall2 c x n col : Forall2 (fun x y => cast c x = Some y) (repeat x n) col <-> List.length col = n /\ Forall (fun y => cast c x = Some y) col.
Proof.
  revert col. induction n as [|n I]; intros col; cbn [repeat]; split.
  - intros H. inversion H. split; [reflexivity|constructor].
  - intros (E & _). destruct col; [constructor|discriminate].
  - intros H. inversion H as [|? y ? ys Hy Hr]; subst. apply I in Hr. destruct Hr as (E & F). split; [cbn; now rewrite E|now constructor].
  - intros (E & F). destruct col as [|y ys]; [discriminate|]. inversion F; subst. constructor; trivial. apply I. split; [now injection E|trivial].
Qed.
Lemma assign_spec n c v col : assign cell cast n c v = Ok col <-> fills n c v col.
Proof.
  destruct v as [x|l]; cbn [assign fills]; [rewrite cast_all_spec; apply repeat_forall2|]. destruct (Nat.eqb (List.length l) n) eqn:E.
  - apply Nat.eqb_eq in E. rewrite cast_all_spec. split; [auto|]. intros [(_ & H)|(x & -> & Lc & F)]; [exact H|]. apply (repeat_forall2 c x 1). split; [cbn in E; congruence|exact F].
  - apply Nat.eqb_neq in E. destruct l as [|x [|y l]].
    + split; [discriminate|]. intros [(H & _)|(x & H & _)]; [congruence|discriminate].
    + rewrite cast_all_spec, repeat_forall2. split; [intros H; right; exists x; tauto|]. intros [(H & _)|(x' & H & K)]; [congruence|]. injection H as <-. exact K.
    + split; [discriminate|]. intros [(H & _)|(x' & H & _)]; [congruence|discriminate].
Qed.
(** all expressions *)
Lemma derive_ok n dt ld es : forall out, NoDup (map fst es) -> (forall nm e, In (nm, e) es -> exists v col, ev e ld = Ok v /\ fills n (code_of nm dt) v col) ->
  exists out', derive cell cast ev n dt ld es out = Ok out' /\ (forall nm e, In (nm, e) es -> exists v col, ev e ld = Ok v /\ fills n (code_of nm dt) v col /\ assoc nm out' = Some col) /\ (forall nm, ~ In nm (map fst es) -> assoc nm out' = assoc nm out).
Proof.
  induction es as [|(nm, e) es I]; intros out ND H; [exists out; repeat split; contradiction|]. cbn [map fst] in ND. inversion ND as [|? ? Nn Nr]; subst. destruct (H nm e (or_introl eq_refl)) as (v & col & E & Fl). cbn [derive]. rewrite E. cbn [bindr]. rewrite (proj2 (assign_spec _ _ _ _) Fl). cbn [bindr].
  destruct (I (put nm col out) Nr) as (out' & D & A & B); [intros; apply (H nm0 e0); now right|]. exists out'. split; [exact D|]. split.
  - intros nm' e' [X|X]; [injection X as <- <-|now apply A]. exists v, col. repeat split; trivial. rewrite B by exact Nn. apply assoc_put_same.
  - intros nm' N. cbn [map fst In] in N. rewrite B by tauto. apply assoc_put_other. intros ->. tauto.
Qed.
Lemma derive_raises n dt ld es : forall out, (exists nm e ex, In (nm, e) es /\ ev e ld = Raise ex) -> (forall nm e, In (nm, e) es -> ev e ld <> OutOfFuel) -> exists ex, derive cell cast ev n dt ld es out = Raise ex.
Proof.
  induction es as [|(nm, e) es I]; intros out (nm' & e' & ex & X & R) Nf; [contradiction|]. cbn [derive]. destruct (ev e ld) as [v|ex1|] eqn:E; cbn [bindr]; [|eauto|exfalso; apply (Nf nm e); [now left|exact E]]. assert (Aok : forall c l, cast_all cell cast c l <> OutOfFuel). { clear. intros c l. induction l as [|x l I]; cbn [cast_all]; [discriminate|]. destruct (cast c x); [|discriminate]. destruct (cast_all cell cast c l); cbn [bindr]; congruence. }
  destruct (assign cell cast n (code_of nm dt) v) as [col|ex2|] eqn:A; cbn [bindr]; [|eauto|].
  - apply I; [|intros; apply (Nf nm0 e0); now right]. destruct X as [X|X]; [injection X as -> ->; congruence|eauto].
  - exfalso. destruct v as [x|l]; cbn [assign] in A; [now apply Aok in A|]. destruct (Nat.eqb _ _); [now apply Aok in A|]. destruct l as [|x [|y l]]; try discriminate. now apply Aok in A.
Qed.
Lemma exprs_in fs nm e : In (nm, e) (exprs_of fs) <-> exists c, In (nm, c, Some e) fs.
Proof.
  unfold exprs_of. rewrite in_flat_map. split.
  - intros (((n, c), o) & F & H). cbn [snd] in H. destruct o; [|contradiction]. destruct H as [H|[]]. unfold fname in H. cbn [fst] in H. injection H as <- <-. eauto.
  - intros (c & F). exists (nm, c, Some e). split; [exact F|]. now left.
Qed.
Lemma exprs_nodup fs : NoDup (map fname fs) -> NoDup (map fst (exprs_of fs)).
Proof.
  induction fs as [|((n, c), o) fs I]; intros ND; [constructor|]. cbn [map] in ND. inversion ND as [|? ? Nn Nr]; subst. unfold exprs_of. cbn [flat_map snd]. fold (exprs_of fs). destruct o as [e|]; [|now apply I]. cbn [app map fst]. constructor; [|now apply I]. intros X. apply Nn. unfold fname at 1. cbn [fst]. now apply exprs_names.
Qed.
Lemma code_field fs n c o : NoDup (map fname fs) -> In (n, c, o) fs -> code_of n (map fst fs) = c.
Proof.
  unfold code_of. induction fs as [|((n', c'), o') fs I]; intros ND H; [contradiction|]. cbn [map] in ND. inversion ND as [|? ? Nn Nr]; subst. cbn [map fst assoc]. destruct H as [H|H].
  - injection H as -> -> ->. now rewrite (proj2 (eqs n n) eq_refl).
  - destruct (str_eqb n n') eqn:E; [apply eqs in E; subst n'; exfalso; apply Nn; unfold fname at 1; cbn [fst]; change n with (fname (n, c, o)); now apply in_map|]. now apply I.
Qed.
Lemma loaded_nodup fs : NoDup (map fname fs) -> NoDup (map fname (filter is_loaded fs)).
Proof.
  induction fs as [|f fs I]; intros ND; [constructor|]. cbn [map] in ND. inversion ND as [|? ? Nn Nr]; subst. cbn [filter]. destruct (is_loaded f); [|now apply I]. cbn [map]. constructor; [|now apply I]. intros X. apply Nn. apply in_map_iff in X. destruct X as (g & E & G). rewrite <- E. apply in_map. now apply filter_In in G.
Qed.
Lemma fst_map_name (fs : list field) : map fst (map fst fs) = map fname fs. Proof. rewrite map_map. reflexivity. Qed.

(** a file: lines, of which one has the fields *)
Record table (com : ascii) (fs : list field) (pre : list str) (h : str) (post : list str) (rows : list (list str)) : Prop := {
  t_com : ~ space com /\ com <> ":"%char;
  t_lines : Forall (fun l => ~ In nl l) (pre ++ (com :: h) :: post);
  t_fields : Forall (good_field com) fs;
  t_header : spaced (map written fs) h;
  t_data : data com rows (pre ++ (com :: h) :: post) }.
Definition header_at (pre : list str) : Z := Z.of_nat (List.length pre) + 1.

Lemma com_nl (com : ascii) : ~ space com -> com <> nl. Proof. intros N ->. apply N. exact nl_space. Qed.
Lemma run_header com fs pre h post rows : table com fs pre h post rows -> let ls := map (fun l => l ++ [nl]) (pre ++ (com :: h) :: post) in
  file_lines (text_of (pre ++ (com :: h) :: post)) = ls /\ field_line ls (header_at pre) = Ok ((com :: h) ++ [nl]) /\ fields_of com None ((com :: h) ++ [nl]) = map written fs.
Proof.
  intros T. cbv zeta. destruct (t_com _ _ _ _ _ _ T) as (Ns & Nc). split; [apply text_lines; exact (t_lines _ _ _ _ _ _ T)|]. split.
  - unfold field_line, header_at. replace (Z.to_nat (Z.of_nat (List.length pre) + 1 - 1)) with (List.length pre) by lia. rewrite map_app, nth_error_app2, map_length, Nat.sub_diag by (rewrite map_length; lia). reflexivity.
  - apply header_words; [now apply com_nl|exact Ns|exact (t_header _ _ _ _ _ _ T)|]. apply Forall_map. eapply Forall_impl; [|exact (t_fields _ _ _ _ _ _ T)]. intros f G. now apply written_no.
Qed.

Lemma core text fl com delim l fs rows env upd : field_line (file_lines text) fl = Ok l -> fields_of com delim l = map written fs -> Forall nocolon fs -> (forall lt, loadtxt cell conv com delim lt (file_lines text) = fold_right (fun ws r => bindr (conv_row cell conv lt ws) (fun x => bindr r (fun xs => Ok (x :: xs)))) (Ok []) rows) -> NoDup (map fname fs) -> Forall (fun f => valid (fcode f) = true) fs -> filter is_loaded fs <> [] -> read_as fs rows env ->
  (forall n c e, In (n, c, Some e) fs -> exists v col, ev e env = Ok v /\ fills (List.length rows) c v col) ->
  exists arr, snd (run text fl com delim false upd) = Ok arr /\ map fst arr = map fname fs /\
  (forall n c, In (n, c, None) fs -> assoc n arr = assoc n env) /\
  (forall n c e, In (n, c, Some e) fs -> exists v col, ev e env = Ok v /\ fills (List.length rows) c v col /\ assoc n arr = Some col).
Proof.
  intros E2 E3 G Ld ND V N0 R De. destruct (rows_exist fs rows env N0 R) as (xss & X1 & X2 & X3). unfold loadtxt_text_fields. cbv zeta. rewrite E2. cbn [bindr]. rewrite E3. rewrite (parse_good fs G (DT [] [] [])) by exact ND. cbn [bindr full load exprs app].
  rewrite check_good; [|apply Forall_map, Forall_forall; intros f F; apply filter_In in F; rewrite Forall_forall in V; now apply V|rewrite fst_map_name; now apply loaded_nodup|auto]. cbn [bindr].
  rewrite check_good; [|now apply Forall_map|now rewrite fst_map_name|auto]. cbn [bindr]. rewrite Ld, X1. cbn [bindr]. rewrite X2, X3.
  destruct (derive_ok (List.length rows) (map fst fs) env (order (exprs_of fs)) env) as (out & D & A & B).
  - apply (Permutation_NoDup (Permutation_map fst (Permutation_sym (order_perm (exprs_of fs))))). now apply exprs_nodup.
  - intros nm e H. apply (Permutation_in _ (order_perm _)) in H. apply exprs_in in H. destruct H as (c & H). rewrite (code_field fs nm c (Some e) ND H). now apply (De nm c e).
  - rewrite D. cbn [bindr snd]. eexists. split; [reflexivity|]. assert (Am : forall n, In n (map fname fs) -> assoc n (map (fun x : str * str => (fst x, column_named cell out (fst x))) (map fst fs)) = Some (column_named cell out n)).
    { rewrite map_map. clear. induction fs as [|f fs I]; intros n H; [contradiction|]. cbn [map assoc fst]. destruct (str_eqb n (fst (fst f))) eqn:E; [apply eqs in E; now subst n|]. apply I. destruct H as [<-|H]; [|exact H]. unfold fname in E. rewrite (proj2 (eqs _ _) eq_refl) in E. discriminate. }
    assert (Nm : forall n c o, In (n, c, o) fs -> In n (map fname fs)) by (intros n c o H; change n with (fname (n, c, o)); now apply in_map). split; [|split].
    + rewrite !map_map. reflexivity.
    + intros n c H. rewrite (Am n (Nm _ _ _ H)). unfold column_named. rewrite B.
      * destruct (assoc n env) eqn:E; [reflexivity|]. exfalso. destruct R as (Ek & _). assert (In n (map fst env)). { rewrite Ek. change n with (fname (n, c, None)). apply in_map. apply filter_In. now split. } apply has_in in H0. unfold has in H0. rewrite E in H0. discriminate.
      * intros X. apply in_map_iff in X. destruct X as ((n', e) & E & X). cbn [fst] in E. subst n'. apply (Permutation_in _ (order_perm _)) in X. apply exprs_in in X. destruct X as (c' & X). clear - ND H X. induction fs as [|f fs I]; [contradiction|]. cbn [map] in ND. inversion ND as [|? ? Nn Nr]; subst. destruct H as [->|H], X as [E|X]; [discriminate| | |now apply I].
        -- apply Nn. change (fname (n, c, None)) with (fname (n, c', Some e)). now apply in_map.
        -- subst f. apply Nn. change (fname (n, c', Some e)) with (fname (n, c, None)). now apply in_map.
    + intros n c e H. rewrite (Am n (Nm _ _ _ H)). destruct (A n e) as (v & col & Ev & Fl & As); [apply (Permutation_in _ (Permutation_sym (order_perm _))); apply exprs_in; now exists c|]. rewrite (code_field fs n c _ ND H) in Fl. exists v, col. repeat split; trivial. unfold column_named. now rewrite As.
Qed.
(** the array has the fields in the order of the line; those without an expression are the columns of the file in order, the others are computed from these *)
Theorem table_loads com fs pre h post rows env upd : table com fs pre h post rows -> NoDup (map fname fs) -> Forall (fun f => valid (fcode f) = true) fs -> filter is_loaded fs <> [] -> read_as fs rows env ->
  (forall n c e, In (n, c, Some e) fs -> exists v col, ev e env = Ok v /\ fills (List.length rows) c v col) ->
  exists arr, snd (run (text_of (pre ++ (com :: h) :: post)) (header_at pre) com None false upd) = Ok arr /\ map fst arr = map fname fs /\
  (forall n c, In (n, c, None) fs -> assoc n arr = assoc n env) /\
  (forall n c e, In (n, c, Some e) fs -> exists v col, ev e env = Ok v /\ fills (List.length rows) c v col /\ assoc n arr = Some col).
Proof.
  intros T ND V N0 R De. destruct (run_header _ _ _ _ _ _ T) as (E1 & E2 & E3). apply core with (l := (com :: h) ++ [nl]); trivial; [now rewrite E1|exact (Forall_impl _ (good_nocolon com) (t_fields _ _ _ _ _ _ T))|]. intros lt. rewrite E1. apply load_data; [apply com_nl; now destruct (t_com _ _ _ _ _ _ T)|exact (t_data _ _ _ _ _ _ T)].
Qed.
(** an expression that raises: the whole raises and nothing is stored *)
Theorem table_expression com fs pre h post rows env upd : table com fs pre h post rows -> NoDup (map fname fs) -> Forall (fun f => valid (fcode f) = true) fs -> filter is_loaded fs <> [] -> read_as fs rows env ->
  (exists n c e ex, In (n, c, Some e) fs /\ ev e env = Raise ex) -> (forall n c e, In (n, c, Some e) fs -> ev e env <> OutOfFuel) ->
  exists ex, run (text_of (pre ++ (com :: h) :: post)) (header_at pre) com None false upd = (upd, Raise ex).
Proof.
  intros T ND V N0 R (n & c & e & ex & H & E) Nf. destruct (run_header _ _ _ _ _ _ T) as (E1 & E2 & E3). destruct (rows_exist fs rows env N0 R) as (xss & X1 & X2 & X3). unfold loadtxt_text_fields. cbv zeta. rewrite E1, E2. cbn [bindr]. rewrite E3. rewrite (parse_good fs (Forall_impl _ (good_nocolon com) (t_fields _ _ _ _ _ _ T)) (DT [] [] [])) by exact ND. cbn [bindr full load exprs app].
  rewrite check_good; [|apply Forall_map, Forall_forall; intros f F; apply filter_In in F; rewrite Forall_forall in V; now apply V|rewrite fst_map_name; now apply loaded_nodup|auto]. cbn [bindr].
  rewrite check_good; [|now apply Forall_map|now rewrite fst_map_name|auto]. cbn [bindr]. rewrite (load_data com _ rows); [|apply com_nl; now destruct (t_com _ _ _ _ _ _ T)|exact (t_data _ _ _ _ _ _ T)]. rewrite X1. cbn [bindr]. rewrite X2, X3.
  destruct (derive_raises (List.length rows) (map fst fs) env (order (exprs_of fs)) env) as (ex' & ->); [|intros nm e' X; apply (Permutation_in _ (order_perm _)) in X; apply exprs_in in X; destruct X as (c' & X); now apply (Nf nm c')|cbn [bindr]; eauto].
  exists n, e, ex. split; [|exact E]. apply (Permutation_in _ (Permutation_sym (order_perm _))). apply exprs_in. now exists c.
Qed.
(** a word that cannot be converted, or a row that is too short *)
Lemma conv_row_bad lt : forall ws j n c w, nth_error lt j = Some (n, c) -> (nth_error ws j = Some w /\ conv c w = None) \/ nth_error ws j = None -> conv_row cell conv lt ws = Raise ValueError.
Proof.
  induction lt as [|(n0, c0) lt I]; intros ws j n c w H K; [destruct j; discriminate|]. destruct ws as [|w0 ws]; [reflexivity|]. cbn [conv_row]. destruct j as [|j]; cbn [nth_error] in *.
  - injection H as -> ->. destruct K as [(K & C)|K]; [|discriminate]. injection K as ->. now rewrite C.
  - destruct (conv c0 w0); [|reflexivity]. now rewrite (I ws j n c w H K).
Qed.
Lemma conv_row_fuel lt : forall ws, conv_row cell conv lt ws <> OutOfFuel.
Proof. induction lt as [|(n0, c0) lt I]; intros [|w ws]; cbn [conv_row]; try discriminate. destruct (conv c0 w); [|discriminate]. specialize (I ws). destruct (conv_row cell conv lt ws); cbn [bindr]; congruence. Qed.
Lemma conv_row_only lt : forall ws e, conv_row cell conv lt ws = Raise e -> e = ValueError.
Proof. induction lt as [|(n0, c0) lt I]; intros [|w ws] e; cbn [conv_row]; try congruence. destruct (conv c0 w); [|congruence]. specialize (I ws). destruct (conv_row cell conv lt ws) as [xs|e'|]; cbn [bindr]; try discriminate. intros H. injection H as <-. now apply I. Qed.
Theorem bad_row com fs pre h post rows upd ws j f : table com fs pre h post rows -> NoDup (map fname fs) -> Forall (fun f => valid (fcode f) = true) fs -> In ws rows -> nth_error (filter is_loaded fs) j = Some f -> (exists w, nth_error ws j = Some w /\ conv (fcode f) w = None) \/ List.length ws <= j ->
  run (text_of (pre ++ (com :: h) :: post)) (header_at pre) com None false upd = (upd, Raise ValueError).
Proof.
  intros T ND V W J B. destruct (run_header _ _ _ _ _ _ T) as (E1 & E2 & E3). unfold loadtxt_text_fields. cbv zeta. rewrite E1, E2. cbn [bindr]. rewrite E3. rewrite (parse_good fs (Forall_impl _ (good_nocolon com) (t_fields _ _ _ _ _ _ T)) (DT [] [] [])) by exact ND. cbn [bindr full load exprs app].
  rewrite check_good; [|apply Forall_map, Forall_forall; intros g F; apply filter_In in F; rewrite Forall_forall in V; now apply V|rewrite fst_map_name; now apply loaded_nodup|auto]. cbn [bindr].
  rewrite check_good; [|now apply Forall_map|now rewrite fst_map_name|auto]. cbn [bindr]. rewrite (load_data com _ rows); [|apply com_nl; now destruct (t_com _ _ _ _ _ _ T)|exact (t_data _ _ _ _ _ _ T)].
  set (lt := map fst (filter is_loaded fs)). assert (Bw : conv_row cell conv lt ws = Raise ValueError). { destruct f as ((n, c), o). destruct B as [(w & B1 & B2)|B]; [apply (conv_row_bad lt ws j n c w)|apply (conv_row_bad lt ws j n c [])]; try (unfold lt; now rewrite nth_error_map, J); [now left|right; now apply nth_error_None]. }
  assert (X : fold_right (fun ws r => bindr (conv_row cell conv lt ws) (fun x => bindr r (fun xs => Ok (x :: xs)))) (Ok []) rows = Raise ValueError).
  { clear - W Bw. induction rows as [|v rows I]; [contradiction|]. cbn [fold_right]. destruct W as [->|W]; [now rewrite Bw|]. rewrite (I W). destruct (conv_row cell conv lt v) as [x|e|] eqn:E; cbn [bindr]; [reflexivity|now rewrite (conv_row_only lt v e E)|now apply conv_row_fuel in E]. }
  rewrite X. reflexivity.
Qed.
(** with a delimiter: if the last field has an expression, the file is read (the expression ends with the newline) *)
Inductive delimited (com d : ascii) : list (list str) -> list str -> Prop :=
| Lnil : delimited com d [] []
| Lskip b c rows ls : Forall space b -> ~ In com b -> (c = [] \/ exists t, c = com :: t) -> delimited com d rows ls -> delimited com d rows ((b ++ c) :: ls)
| Lrow a t b ws c rows ls : ws <> [] -> join [d] ws = a :: t ++ [b] -> ~ space a -> ~ space b -> Forall (fun w => ~ In d w /\ ~ In com w) ws -> (c = [] \/ exists t, c = com :: t) -> delimited com d rows ls -> delimited com d (ws :: rows) ((join [d] ws ++ c) :: ls).
Lemma split_joined (c : ascii) ws : ws <> [] -> Forall (fun w => ~ In c w) ws -> split_on c (join [c] ws) = ws.
Proof.
  induction ws as [|w ws I]; intros N F; [congruence|]. inversion F as [|? ? Fw Fr]; subst. destruct ws as [|w' ws]; [cbn [join]; now apply split_no|]. change (join [c] (w :: w' :: ws)) with (w ++ c :: join [c] (w' :: ws)). rewrite split_one by exact Fw. now rewrite I.
Qed.
Lemma join_no (com d : ascii) ws : com <> d -> Forall (fun w => ~ In com w) ws -> ~ In com (join [d] ws).
Proof.
  intros Ncd Nw. induction ws as [|w ws I]; [now intros []|]. inversion Nw as [|? ? Nw0 Nr]; subst. destruct ws as [|w' ws]; [exact Nw0|]. change (join [d] (w :: w' :: ws)) with (w ++ d :: join [d] (w' :: ws)). intros X. apply in_app_iff in X. destruct X as [X|[X|X]]; [contradiction|congruence|now apply I].
Qed.
Lemma strip_blank y : Forall space y -> strip y = [].
Proof. intros F. unfold strip. destruct (lstrip_cases y) as [(_ & ->)|(p & b & q & -> & _ & Nb & _)]; [reflexivity|]. exfalso. apply Forall_app in F. destruct F as (_ & F). inversion F; subst. contradiction. Qed.
Lemma strip_tail a t b y : ~ space a -> ~ space b -> Forall space y -> strip ((a :: t ++ [b]) ++ y) = a :: t ++ [b].
Proof.
  intros A B F. unfold strip, lstrip. cbn [app]. cbn [span]. destruct (is_space a) eqn:E; [contradiction|]. cbn [snd]. unfold rstrip. change (a :: (t ++ [b]) ++ y) with ((a :: t ++ [b]) ++ y). rewrite rev_app_distr. change (a :: t ++ [b]) with ((a :: t) ++ [b]). rewrite rev_app_distr. cbn [rev app]. assert (X : span is_space (rev y ++ b :: rev t ++ [a]) = (rev y, b :: rev t ++ [a])). { assert (Fy : Forall space (rev y)) by now apply Forall_rev. generalize (rev y) Fy. clear - B. intros z Fz. induction z as [|c z I]; cbn [app span]; [destruct (is_space b) eqn:E; [contradiction|reflexivity]|]. inversion Fz as [|? ? Fc Fr]; subst. rewrite Fc, (I Fr). reflexivity. }
  rewrite X. cbn [snd]. cbn [rev]. rewrite rev_app_distr, rev_involutive. cbn [rev app]. now rewrite app_comm_cons.
Qed.
Lemma load_delimited com d lt rows lines : com <> nl -> com <> d -> delimited com d rows lines -> loadtxt cell conv com (Some d) lt (map (fun l => l ++ [nl]) lines) = fold_right (fun ws r => bindr (conv_row cell conv lt ws) (fun x => bindr r (fun xs => Ok (x :: xs)))) (Ok []) rows.
Proof.
  intros Nc Ncd D. induction D as [|b c rows ls F N C D I|a t b ws c rows ls Nw J A B F C D I]; cbn [map loadtxt fold_right]; [reflexivity| |]; unfold row_words.
  - destruct (before_tail com b c N C Nc) as (y & -> & Fy). rewrite strip_blank by (apply Forall_app; now split). exact I.
  - destruct (before_tail com (join [d] ws) c) as (y & -> & Fy); trivial; [apply join_no; trivial; eapply Forall_impl; [|exact F]; cbv beta; tauto|]. rewrite J, strip_tail by trivial. rewrite <- J. unfold splitl. rewrite split_joined; [|exact Nw|eapply Forall_impl; [|exact F]; cbv beta; tauto]. destruct ws as [|w ws]; [congruence|]. rewrite I. reflexivity.
Qed.
Lemma header_delimited com d fs n c o : com <> nl -> d <> nl -> com <> d -> com <> ":"%char -> Forall (good_field com) (fs ++ [(n, c, o)]) -> Forall (fun f => ~ In d (written f)) (fs ++ [(n, c, o)]) ->
  fields_of com (Some d) ((com :: join [d] (map written (fs ++ [(n, c, o)]))) ++ [nl]) = map written fs ++ [written (n, c, o) ++ [nl]].
Proof.
  intros Nc Nd Ncd Ncc G Gd. set (ws := map written (fs ++ [(n, c, o)])).
  assert (Nj : ~ In com (join [d] ws)) by (apply join_no; trivial; unfold ws; apply Forall_map; eapply Forall_impl; [|exact G]; intros f Gf; now apply written_no).
  unfold fields_of, splitl. change ((com :: join [d] ws) ++ [nl]) with ([com] ++ join [d] ws ++ [nl]). rewrite !without_app. rewrite (without_no com (join [d] ws)) by exact Nj. rewrite (without_no com [nl]) by (intros [X|[]]; congruence). unfold without. cbn [filter]. rewrite (proj2 (eqa com com) eq_refl). cbn [negb app].
  assert (J : join [d] ws ++ [nl] = join [d] (map written fs ++ [written (n, c, o) ++ [nl]])). { unfold ws. rewrite !map_app. cbn [map]. generalize (written (n, c, o)). generalize (map written fs). clear. induction l as [|w l I]; intros t; [reflexivity|]. cbn [app]. destruct l as [|w' l]; [cbn [app join]; now rewrite <- app_assoc|]. specialize (I t). change ((w' :: l) ++ [t ++ [nl]]) with (w' :: (l ++ [t ++ [nl]])) in *. change ((w' :: l) ++ [t]) with (w' :: (l ++ [t])) in *. change (join [d] (w :: w' :: l ++ [t ++ [nl]])) with (w ++ [d] ++ join [d] (w' :: l ++ [t ++ [nl]])). change (join [d] (w :: w' :: l ++ [t])) with (w ++ [d] ++ join [d] (w' :: l ++ [t])). rewrite <- !app_assoc. now rewrite <- I. }
  rewrite J. apply split_joined; [destruct fs; discriminate|]. apply Forall_app in Gd. destruct Gd as (Gd1 & Gd2). apply Forall_app. split; [now apply Forall_map|]. constructor; [|constructor]. inversion Gd2 as [|? ? Gl _]; subst. intros X. apply in_app_iff in X. destruct X as [X|[X|[]]]; [contradiction|congruence].
Qed.
Theorem delimited_loads com d fs n c e pre post rows env upd : ~ space com -> com <> d -> com <> ":"%char -> d <> nl -> Forall (fun l => ~ In nl l) (pre ++ (com :: join [d] (map written (fs ++ [(n, c, Some e)]))) :: post) ->
  Forall (good_field com) (fs ++ [(n, c, Some e)]) -> Forall (fun f => ~ In d (written f)) (fs ++ [(n, c, Some e)]) -> delimited com d rows (pre ++ (com :: join [d] (map written (fs ++ [(n, c, Some e)]))) :: post) ->
  let fs' := fs ++ [(n, c, Some (e ++ [nl]))] in
  NoDup (map fname fs') -> Forall (fun f => valid (fcode f) = true) fs' -> filter is_loaded fs' <> [] -> read_as fs' rows env ->
  (forall n c e, In (n, c, Some e) fs' -> exists v col, ev e env = Ok v /\ fills (List.length rows) c v col) ->
  exists arr, snd (run (text_of (pre ++ (com :: join [d] (map written (fs ++ [(n, c, Some e)]))) :: post)) (header_at pre) com (Some d) false upd) = Ok arr /\ map fst arr = map fname fs' /\
  (forall n c, In (n, c, None) fs' -> assoc n arr = assoc n env) /\
  (forall n c e, In (n, c, Some e) fs' -> exists v col, ev e env = Ok v /\ fills (List.length rows) c v col /\ assoc n arr = Some col).
Proof.
  intros Ns Ncd Ncc Nd Fl G Gd D fs' ND V N0 R De. pose proof (com_nl com Ns) as Nc. apply core with (l := (com :: join [d] (map written (fs ++ [(n, c, Some e)]))) ++ [nl]); trivial.
  - rewrite (text_lines _ Fl). unfold field_line, header_at. replace (Z.to_nat (Z.of_nat (List.length pre) + 1 - 1)) with (List.length pre) by lia. rewrite map_app, nth_error_app2, map_length, Nat.sub_diag by (rewrite map_length; lia). reflexivity.
  - rewrite header_delimited by trivial. unfold fs'. rewrite map_app. cbn [map]. f_equal. unfold written, fname, fcode. cbn [fst snd]. now rewrite <- !app_assoc.
  - apply Forall_app in G. destruct G as (G1 & G2). unfold fs'. apply Forall_app. split; [exact (Forall_impl _ (good_nocolon com) G1)|]. constructor; [|constructor]. inversion G2 as [|? ? Gl _]; subst. apply good_nocolon in Gl. destruct Gl as (A & B & C). repeat split; trivial. cbn [snd] in *. intros X. apply in_app_iff in X. destruct X as [X|[X|[]]]; [contradiction|discriminate].
  - intros lt. rewrite (text_lines _ Fl). now apply load_delimited.
Qed.
(** ** Failures *)
(** whatever happens: if it raises, the dictionary is as before; otherwise it has the columns besides what it had *)
Theorem update_dict text fl com delim kw u arr : run text fl com delim kw (Some u) = (fst (run text fl com delim kw (Some u)), Ok arr) -> NoDup (map fst arr) -> exists u', fst (run text fl com delim kw (Some u)) = Some u' /\ forall n, assoc n u' = match assoc n arr with Some c => Some c | None => assoc n u end.
Proof.
  intros H ND. assert (E : snd (run text fl com delim kw (Some u)) = Ok arr) by (rewrite H; reflexivity). clear H. unfold loadtxt_text_fields in *. destruct kw; [discriminate|]. cbv zeta in *. match goal with |- context [match ?x with Ok _ => _ | Raise _ => _ | OutOfFuel => _ end] => destruct x as [a|e|] end; [|discriminate|discriminate]. cbn [snd] in E. injection E as ->. cbn [fst]. eexists. split; [reflexivity|]. intros n. clear - ND. revert u. induction arr as [|(k, c) arr I]; intros u; [reflexivity|]. cbn [map fst] in ND. inversion ND as [|? ? Nk Nr]; subst. cbn [fold_left fst snd assoc]. rewrite (I Nr). rewrite assoc_put. destruct (str_eqb n k) eqn:E; [|reflexivity]. apply eqs in E. subst n. destruct (assoc k arr) eqn:A; [|reflexivity]. exfalso. apply Nk. apply has_in. unfold has. now rewrite A.
Qed.
Theorem failure_keeps text fl com delim kw upd e : snd (run text fl com delim kw upd) = Raise e -> fst (run text fl com delim kw upd) = upd.
Proof. unfold loadtxt_text_fields. destruct kw; [reflexivity|]. cbv zeta. match goal with |- context [match ?x with Ok _ => _ | Raise _ => _ | OutOfFuel => _ end] => destruct x end; [discriminate|reflexivity|reflexivity]. Qed.
(** numbers below one mean the first line *)
Theorem first_line text fl com delim kw upd : (fl <= 1)%Z -> run text fl com delim kw upd = run text 1 com delim kw upd.
Proof. intros H. unfold loadtxt_text_fields, field_line. replace (Z.to_nat (fl - 1)) with 0 by lia. reflexivity. Qed.
(** a line after the end *)
Theorem no_field_line ls fl com delim upd : Forall (fun l => ~ In nl l) ls -> (Z.of_nat (List.length ls) < fl)%Z -> run (text_of ls) fl com delim false upd = (upd, Raise NameError).
Proof.
  intros F H. unfold loadtxt_text_fields, field_line. cbv zeta. rewrite (text_lines ls F), (proj2 (nth_error_None _ _)); [reflexivity|]. rewrite map_length. lia.
Qed.
Lemma parse_bad ws : forall d w, In w ws -> (forall a b, split_on colon w <> [a; b]) -> (forall a b c, split_on colon w <> [a; b; c]) -> parse_fields ws d = Raise ValueError.
Proof.
  induction ws as [|v ws I]; intros d w H A B; [contradiction|]. cbn [parse_fields]. destruct H as [->|H].
  - destruct (split_on colon w) as [|x [|y [|z [|t l]]]]; try reflexivity; exfalso; [now apply (A x y)|now apply (B x y z)].
  - destruct (split_on colon v) as [|x [|y [|z [|t l]]]]; try reflexivity; now apply (I _ w).
Qed.
Lemma split_count c s : List.length (split_on c s) = S (List.length (filter (fun a => a =a c) s)).
Proof.
  induction s as [|a s I]; [reflexivity|]. cbn [split_on filter]. destruct (a =a c) eqn:E; cbn [List.length]; [now rewrite I|]. destruct (split_on c s) as [|x l]; [discriminate|]. exact I.
Qed.
(** a field with no colon, or with more than two (a slice in an expression, say) *)
Theorem bad_field com ws w pre h post upd : ~ space com -> Forall (fun l => ~ In nl l) (pre ++ (com :: h) :: post) -> spaced ws h -> Forall (fun w => ~ In com w) ws -> In w ws -> List.length (filter (fun a => a =a ":"%char) w) <> 1 -> List.length (filter (fun a => a =a ":"%char) w) <> 2 ->
  run (text_of (pre ++ (com :: h) :: post)) (header_at pre) com None false upd = (upd, Raise ValueError).
Proof.
  intros Ns Fl S F W N1 N2. unfold loadtxt_text_fields. cbv zeta. rewrite (text_lines _ Fl). unfold field_line, header_at. replace (Z.to_nat (Z.of_nat (List.length pre) + 1 - 1)) with (List.length pre) by lia. rewrite map_app, nth_error_app2, map_length, Nat.sub_diag by (rewrite map_length; lia). cbn [map nth_error bindr].
  rewrite (header_words com h ws (com_nl com Ns) Ns S F). rewrite (parse_bad ws _ w W); [reflexivity| |]; intros; intros E; apply (f_equal (@List.length str)) in E; rewrite split_count in E; unfold colon in E; cbn [List.length] in E; lia.
Qed.
(** a code that numpy does not know; a name that occurs twice *)
Lemma check_bad l : forall seen, (exists x, In x l /\ valid (snd x) = false) -> NoDup (map fst l) -> (forall n, In n (map fst l) -> ~ In n seen) -> check valid seen l = Raise TypeError.
Proof.
  induction l as [|(n, c) l I]; intros seen (x & X & V) ND H; [contradiction|]. inversion ND as [|? ? Nn Nr]; subst. cbn [check]. destruct (valid c) eqn:E; [|reflexivity]. cbn [negb].
  assert (E' : existsb (str_eqb n) seen = false). { apply not_true_iff_false. intros Y. apply existsb_exists in Y. destruct Y as (m & M & Em). apply eqs in Em. subst m. apply (H n); [now left|exact M]. }
  rewrite E'. apply I; trivial; [|intros m M [<-|S]; [contradiction|]; apply (H m); [now right|exact S]]. exists x. split; [|exact V]. destruct X as [<-|X]; [cbn [snd] in V; congruence|exact X].
Qed.
Theorem unknown_code com fs pre h post rows upd : table com fs pre h post rows -> NoDup (map fname fs) -> (exists f, In f fs /\ valid (fcode f) = false) -> run (text_of (pre ++ (com :: h) :: post)) (header_at pre) com None false upd = (upd, Raise TypeError).
Proof.
  intros T ND (f & F & V). destruct (run_header _ _ _ _ _ _ T) as (E1 & E2 & E3). unfold loadtxt_text_fields. cbv zeta. rewrite E1, E2. cbn [bindr]. rewrite E3. rewrite (parse_good fs (Forall_impl _ (good_nocolon com) (t_fields _ _ _ _ _ _ T)) (DT [] [] [])) by exact ND. cbn [bindr full load exprs app].
  destruct (existsb (fun f => negb (valid (fcode f))) (filter is_loaded fs)) eqn:X.
  - apply existsb_exists in X. destruct X as (g & G & Vg). rewrite check_bad; [reflexivity| |rewrite fst_map_name; now apply loaded_nodup|auto]. exists (fst g). split; [now apply in_map|]. now apply negb_true_iff in Vg.
  - rewrite check_good; [|apply Forall_map, Forall_forall; intros g G; apply not_true_iff_false in X; destruct (valid (snd (fst g))) eqn:Vg; [reflexivity|]; exfalso; apply X; apply existsb_exists; exists g; split; [exact G|]; unfold fcode; now rewrite Vg|rewrite fst_map_name; now apply loaded_nodup|auto]. cbn [bindr]. rewrite check_bad; [reflexivity| |now rewrite fst_map_name|auto]. exists (fst f). split; [now apply in_map|exact V].
Qed.
Lemma parse_any fs : Forall nocolon fs -> forall d, exists es, parse_fields (map written fs) d = Ok (DT (full d ++ map fst fs) (load d ++ map fst (filter is_loaded fs)) es).
Proof.
  induction fs as [|f fs I]; intros F d; cbn [map parse_fields filter]; [exists (exprs d); rewrite !app_nil_r; now destruct d|]. inversion F as [|? ? Ff Fr]; subst. rewrite (written_split f Ff). destruct f as ((n, c), [e|]); unfold fname, fcode, is_loaded in *; cbn [fst snd] in *.
  - destruct (I Fr (DT (full d ++ [(n, c)]) (load d) (put n e (exprs d)))) as (es & ->). exists es. cbn [full load]. now rewrite <- !app_assoc.
  - destruct (I Fr (DT (full d ++ [(n, c)]) (load d ++ [(n, c)]) (exprs d))) as (es & ->). exists es. cbn [full load]. now rewrite <- !app_assoc.
Qed.
Lemma check_twice l : forall seen, Forall (fun x => valid (snd x) = true) l -> ~ (NoDup (map fst l) /\ forall n, In n (map fst l) -> ~ In n seen) -> check valid seen l = Raise ValueError.
Proof.
  induction l as [|(n, c) l I]; intros seen F H; [exfalso; apply H; split; [constructor|contradiction]|]. inversion F as [|? ? Fc Fr]; subst. cbn [check]. cbn [snd] in Fc. rewrite Fc. cbn [negb]. destruct (existsb (str_eqb n) seen) eqn:E; [reflexivity|]. assert (Ns : ~ In n seen) by (intros X; apply not_true_iff_false in E; apply E; apply existsb_exists; exists n; split; [exact X|now apply eqs]).
  apply I; [exact Fr|]. intros (ND & K). apply H. cbn [map fst]. split; [constructor; [|exact ND]; intros X; apply (K n X); now left|]. intros m [<-|M]; [exact Ns|]. intros S. apply (K m M). now right.
Qed.
Theorem name_twice com fs pre h post rows upd : table com fs pre h post rows -> Forall (fun f => valid (fcode f) = true) fs -> ~ NoDup (map fname fs) -> run (text_of (pre ++ (com :: h) :: post)) (header_at pre) com None false upd = (upd, Raise ValueError).
Proof.
  intros T V ND. destruct (run_header _ _ _ _ _ _ T) as (E1 & E2 & E3). unfold loadtxt_text_fields. cbv zeta. rewrite E1, E2. cbn [bindr]. rewrite E3. destruct (parse_any fs (Forall_impl _ (good_nocolon com) (t_fields _ _ _ _ _ _ T)) (DT [] [] [])) as (es & ->). cbn [bindr full load exprs app].
  assert (Vl : Forall (fun x : str * str => valid (snd x) = true) (map fst (filter is_loaded fs))) by (apply Forall_map, Forall_forall; intros f F; apply filter_In in F; rewrite Forall_forall in V; now apply V).
  destruct (ListDec.NoDup_dec (list_eq_dec ascii_dec) (map fname (filter is_loaded fs))) as [D|D].
  - rewrite check_good; [|exact Vl|now rewrite fst_map_name|auto]. cbn [bindr]. rewrite check_twice; [reflexivity|now apply Forall_map|]. rewrite fst_map_name. tauto.
  - rewrite check_twice; [reflexivity|exact Vl|]. rewrite fst_map_name. tauto.
Qed.
(** with a delimiter the code of the last field ends with the newline *)
Theorem delimiter_refuted com d fs n c pre post upd : com <> nl -> d <> nl -> com <> d -> com <> ":"%char -> d <> ":"%char -> Forall (good_field com) (fs ++ [(n, c, None)]) -> Forall (fun f => ~ In d (written f)) (fs ++ [(n, c, None)]) -> (forall x, valid (x ++ [nl]) = false) -> NoDup (map fname (fs ++ [(n, c, None)])) ->
  Forall (fun l => ~ In nl l) (pre ++ (com :: join [d] (map written (fs ++ [(n, c, None)]))) :: post) ->
  run (text_of (pre ++ (com :: join [d] (map written (fs ++ [(n, c, None)]))) :: post)) (header_at pre) com (Some d) false upd = (upd, Raise TypeError).
Proof.
  intros Nc Nd Ncd Ncc Ndc G Gd V ND Fl. set (ws := map written (fs ++ [(n, c, None)])) in *. unfold loadtxt_text_fields. cbv zeta. rewrite (text_lines _ Fl). unfold field_line, header_at. replace (Z.to_nat (Z.of_nat (List.length pre) + 1 - 1)) with (List.length pre) by lia. rewrite map_app, nth_error_app2, map_length, Nat.sub_diag by (rewrite map_length; lia). cbn [map nth_error bindr].
  assert (Fo : fields_of com (Some d) ((com :: join [d] ws) ++ [nl]) = map written (fs ++ [(n, c ++ [nl], None)])) by (unfold ws; rewrite header_delimited by trivial; rewrite map_app; cbn [map]; f_equal; unfold written, fname, fcode; cbn [fst snd]; now rewrite !app_nil_r, <- !app_assoc).
  rewrite Fo. assert (P : exists es, parse_fields (map written (fs ++ [(n, c ++ [nl], None)])) (DT [] [] []) = Ok (DT (map fst (fs ++ [(n, c ++ [nl], None)])) (map fst (filter is_loaded (fs ++ [(n, c ++ [nl], None)]))) es)).
  { assert (Q : forall fs', (forall f, In f fs' -> split_on colon (written f) = fname f :: fcode f :: match snd f with None => [] | Some e => [e] end) -> forall d0, exists es, parse_fields (map written fs') d0 = Ok (DT (full d0 ++ map fst fs') (load d0 ++ map fst (filter is_loaded fs')) es)).
    { clear. induction fs' as [|f fs' I]; intros F d; cbn [map parse_fields filter]; [exists (exprs d); rewrite !app_nil_r; now destruct d|]. rewrite (F f (or_introl eq_refl)). assert (Fr : forall g, In g fs' -> split_on colon (written g) = fname g :: fcode g :: match snd g with None => [] | Some e => [e] end) by (intros g X; apply F; now right). destruct f as ((n, c), [e|]); unfold fname, fcode, is_loaded in *; cbn [fst snd] in *.
      - destruct (I Fr (DT (full d ++ [(n, c)]) (load d) (put n e (exprs d)))) as (es & ->). exists es. cbn [full load]. now rewrite <- !app_assoc.
      - destruct (I Fr (DT (full d ++ [(n, c)]) (load d ++ [(n, c)]) (exprs d))) as (es & ->). exists es. cbn [full load]. now rewrite <- !app_assoc. }
    apply (Q _) with (d0 := DT [] [] []). intros f F. apply in_app_iff in F. apply Forall_app in G. destruct G as (G1 & G2). destruct F as [F|[<-|[]]]; [apply written_split, (good_nocolon com); rewrite Forall_forall in G1; now apply G1|]. inversion G2 as [|? ? (A & B & _) _]; subst. unfold written, fname, fcode in *. cbn [fst snd] in *. rewrite app_nil_r. change (L ":") with [colon]. cbn [app]. rewrite split_one by now apply (plain_no com). rewrite split_no; [reflexivity|]. intros X. apply in_app_iff in X. destruct X as [X|[X|[]]]; [now apply (plain_no com) in X|discriminate]. }
  destruct P as (es & ->). cbn [bindr full load]. assert (ND' : NoDup (map fname (fs ++ [(n, c ++ [nl], None)]))) by (rewrite map_app in *; exact ND). destruct (existsb (fun f => negb (valid (fcode f))) (filter is_loaded (fs ++ [(n, c ++ [nl], None)]))) eqn:X.
  - apply existsb_exists in X. destruct X as (g & Gi & Vg). rewrite check_bad; [reflexivity| |rewrite fst_map_name; now apply loaded_nodup|auto]. exists (fst g). split; [now apply in_map|]. now apply negb_true_iff in Vg.
  - exfalso. apply not_true_iff_false in X. apply X. apply existsb_exists. exists (n, c ++ [nl], None). split; [|unfold fcode; cbn [fst snd]; now rewrite V]. apply filter_In. split; [apply in_app_iff; right; now left|reflexivity].
Qed.
End Txt.
(** ** An example: numbers, and expressions that are a name or a sum of two *)
Definition ex_valid (c : str) : bool := str_eqb c (L "f") || str_eqb c (L "i").
Definition ex_conv (c w : str) : option nat := match py_int w with Ok z => Some (Z.to_nat z) | _ => None end.
Definition ex_cast (c : str) (x : nat) : option nat := Some x.
Definition ex_ev (e : str) (env : list (str * list nat)) : @res (value nat) :=
  match split_on "+"%char e with
  | [a] => match py_int a with Ok z => Ok (One nat (Z.to_nat z)) | _ => match assoc a env with Some l => Ok (Col nat l) | None => Raise NameError end end
  | [a; b] => match assoc a env, assoc b env with Some x, Some y => Ok (Col nat (map (fun p => fst p + snd p) (combine x y))) | _, _ => Raise NameError end
  | _ => Raise TypeError
  end.
Definition lines1 : list str := map L ["# a comment"; "# data1:f derived:f:data1+data2 one:i:1 data2:i"; "1 2"; "  3   4 # and this"; ""; "5 6"]%string.
Definition keep_order (l : list (str * str)) := l.
Example table1 : loadtxt_text_fields nat ex_valid ex_conv ex_cast ex_ev keep_order (text_of lines1) 2 "#"%char None false (Some [(L "x", [9]); (L "one", [7])]) =
  (Some [(L "x", [9]); (L "one", [1; 1; 1]); (L "data1", [1; 3; 5]); (L "derived", [3; 7; 11]); (L "data2", [2; 4; 6])], Ok [(L "data1", [1; 3; 5]); (L "derived", [3; 7; 11]); (L "one", [1; 1; 1]); (L "data2", [2; 4; 6])]).
Proof. vm_compute. reflexivity. Qed.
(** a derived column cannot use another one *)
Theorem derived_chain_refuted : exists upd, loadtxt_text_fields nat ex_valid ex_conv ex_cast ex_ev keep_order (L "#a:f b:f:a c:f:b" ++ [nl] ++ L "1") 1 "#"%char None false (Some upd) = (Some upd, Raise NameError).
Proof. exists []. vm_compute. reflexivity. Qed.
Lemma w_word s : forallb (fun a => negb (is_space a)) s = true -> s <> [] -> word s.
Proof. intros H N. split; [exact N|]. apply Forall_forall. intros a A S. rewrite forallb_forall in H. apply H in A. unfold space in S. rewrite S in A. discriminate. Qed.
Definition fields1 : list field := [(L "data1", L "f", None); (L "derived", L "f", Some (L "data1+data2")); (L "one", L "i", Some (L "1")); (L "data2", L "i", None)].
Ltac noin := let X := fresh in intros X; vm_compute in X; repeat (destruct X as [X|X]; [discriminate|]); exact X.
Example table1_ok : table "#"%char fields1 [L "# a comment"] (L " data1:f derived:f:data1+data2 one:i:1 data2:i") (skipn 2 lines1) [map L ["1"; "2"]%string; map L ["3"; "4"]%string; map L ["5"; "6"]%string].
Proof.
  assert (G : forall s, forallb (fun a => negb (is_space a) && negb (a =a "#"%char) && negb (a =a ":"%char)) s = true -> plain_text "#"%char s).
  { intros s H. unfold plain_text. apply Forall_forall. intros a A. rewrite forallb_forall in H. apply H in A. apply andb_true_iff in A. destruct A as (A & A3). apply andb_true_iff in A. destruct A as (A1 & A2). apply negb_true_iff in A1, A2, A3. repeat split; [unfold space; congruence|now apply neqa|now apply neqa]. }
  constructor.
  - split; [intros X; vm_compute in X; discriminate|discriminate].
  - repeat (constructor; [noin|]). constructor.
  - unfold fields1. repeat (constructor; [repeat split; cbn [fname fcode snd fst]; trivial; apply G; vm_compute; reflexivity|]). constructor.
  - unfold fields1. cbn [map].
    assert (S1 : forall w ws r, word w -> spaced ws (" "%char :: r) -> spaced (w :: ws) (L " " ++ w ++ " "%char :: r)) by (intros; constructor; trivial; repeat constructor). assert (Sl : forall w, word w -> spaced [w] (L " " ++ w)) by (intros; constructor; trivial; repeat constructor).
    apply (S1 (L "data1:f") _ (L "derived:f:data1+data2 one:i:1 data2:i")); [apply w_word; [reflexivity|discriminate]|]. apply (S1 (L "derived:f:data1+data2") _ (L "one:i:1 data2:i")); [apply w_word; [reflexivity|discriminate]|]. apply (S1 (L "one:i:1") _ (L "data2:i")); [apply w_word; [reflexivity|discriminate]|]. apply (Sl (L "data2:i")). apply w_word; [reflexivity|discriminate].
  - cbn [app skipn lines1 map].
    apply (Dskip _ [] (L "# a comment")); [constructor|right; eexists; reflexivity|now intros []|].
    apply (Dskip _ [] (L "# data1:f derived:f:data1+data2 one:i:1 data2:i")); [constructor|right; eexists; reflexivity|now intros []|].
    apply (Drow _ (L "1 2") _ []); [discriminate| |noin|now left|]. { apply (Sp1 [] (L "1") " "%char (L "2")); [constructor|apply w_word; [reflexivity|discriminate]|reflexivity|]. apply (Spl (L " ") (L "2")); [repeat constructor|apply w_word; [reflexivity|discriminate]]. }
    apply (Drow _ (L "  3   4 ") _ (L "# and this")); [discriminate| |noin|right; eexists; reflexivity|]. { apply (Sp1 (L "  ") (L "3") " "%char (L "  4 ")); [repeat constructor|apply w_word; [reflexivity|discriminate]|reflexivity|]. apply (Sp1 (L "   ") (L "4") " "%char []); [repeat constructor|apply w_word; [reflexivity|discriminate]|reflexivity|]. constructor. repeat constructor. }
    apply (Dskip _ [] []); [constructor|now left|now intros []|].
    apply (Drow _ (L "5 6") _ []); [discriminate| |noin|now left|constructor]. { apply (Sp1 [] (L "5") " "%char (L "6")); [constructor|apply w_word; [reflexivity|discriminate]|reflexivity|]. apply (Spl (L " ") (L "6")); [repeat constructor|apply w_word; [reflexivity|discriminate]]. }
Qed.
(** a file with commas whose last field has an expression *)
Definition lines2 : list str := map L ["#a:f,b:i,c:i:1"; "1,2"; ""; "3,4# and this"]%string.
Example table2 : loadtxt_text_fields nat ex_valid ex_conv ex_cast ex_ev keep_order (text_of lines2) 1 "#"%char (Some ","%char) false None = (None, Ok [(L "a", [1; 3]); (L "b", [2; 4]); (L "c", [1; 1])]).
Proof. vm_compute. reflexivity. Qed.
Example table2_ok : lines2 = [] ++ ("#"%char :: join [","%char] (map written ([(L "a", L "f", None); (L "b", L "i", None)] ++ [(L "c", L "i", Some (L "1"))]))) :: skipn 1 lines2 /\
  delimited "#"%char ","%char [map L ["1"; "2"]%string; map L ["3"; "4"]%string] lines2 /\ read_as nat ex_conv [(L "a", L "f", None); (L "b", L "i", None); (L "c", L "i", Some (L "1" ++ [nl]))] [map L ["1"; "2"]%string; map L ["3"; "4"]%string] [(L "a", [1; 3]); (L "b", [2; 4])].
Proof.
  split; [reflexivity|]. split.
  - apply (Lskip _ _ [] (L "#a:f,b:i,c:i:1")); [constructor|now intros []|right; eexists; reflexivity|].
    apply (Lrow _ _ "1"%char (L ",") "2"%char (map L ["1"; "2"]%string) []); [discriminate|reflexivity|discriminate|discriminate|repeat (constructor; [split; noin|]); constructor|now left|].
    apply (Lskip _ _ [] []); [constructor|now intros []|now left|].
    apply (Lrow _ _ "3"%char (L ",") "4"%char (map L ["3"; "4"]%string) (L "# and this")); [discriminate|reflexivity|discriminate|discriminate|repeat (constructor; [split; noin|]); constructor|right; eexists; reflexivity|constructor].
  - split; [reflexivity|]. split; [repeat constructor|]. intros [|[|j]] f n col F E; [injection F as <-; injection E as _ <-|injection F as <-; injection E as _ <-|destruct j; discriminate]; repeat (constructor; [eexists; split; [reflexivity|vm_compute; reflexivity]|]); constructor.
Qed.
