(** * PubTree: walking and editing the parsed tree (C59), figures (C60): astropysics/publication.py *)
From Coq Require Import List Bool ZArith String Ascii Arith Lia Permutation.
From Verif Require Import PyBase PubModel PubProps PubFile PubComments.
Import ListNotations.

(** ** Model *)
(** the nodes a visitor meets: arguments of commands are nodes of their own *)
Inductive vnode := VN (n : node) | VA (a : arg).
Definition opt {R} (o : option R) : list R := match o with Some r => [r] | None => [] end.
(** TeXNode.visit 153-171.  A comment that ends its line has a Newline child (843-860, 303-306); the command of a declaration is not among its children (726-757) *)
Fixpoint visit {R} (f : vnode -> option R) (n : node) : list R :=
  opt (f (VN n)) ++
  match n with
  | Env _ l | Math _ l | Decl _ _ l => flat_map (visit f) l
  | Cmd _ args => flat_map (fun a => opt (f (VA a))) args
  | Comm _ true => opt (f (VN Newline))
  | _ => []
  end.
(** prep_for_arxiv_pub 1085, prep_for_apj_pub 1259: visit with a function that prunes comments.  [prune] (134-151) takes the node out of the list of children that the loop of [visit] is running over by position, so the
    node that follows a pruned one moves to its place and is passed over.  The number counts the pruned comments. *)
Fixpoint strip_node (n : node) : node * nat :=
  let fix go (l : list node) : list node * nat :=
    match l with
    | [] => ([], O)
    | c :: l => if is_comment c then match l with [] => ([], 1%nat) | d :: l => let (q, k) := go l in (d :: q, S k) end
                else let (c', j) := strip_node c in let (q, k) := go l in (c' :: q, (j + k)%nat)
    end in
  match n with
  | Env w l => let (q, k) := go l in (Env w q, k)
  | Math d l => let (q, k) := go l in (Math d q, k)
  | Decl p c l => let (q, k) := go l in (Decl p c q, k)
  | _ => (n, O)
  end.
(** the file itself is a node whose text is that of its children; the first child is the preamble, a node of the same kind *)
Definition strip_file (f : list node * list node) : (list node * list node) * nat :=
  match strip_node (Math false (fst f)), strip_node (Math false (snd f)) with
  | (Math _ a, j), (Math _ b, k) => ((a, b), (j + k)%nat)
  | _, _ => (f, O)
  end.

(** Figure 476-518 *)
Definition file_cmd (n : node) : bool := match n with Cmd w _ => str_eqb w (L "plotone") || str_eqb w (L "plottwo") || str_eqb w (L "plotfiddle") || str_eqb w (L "includegraphics") | _ => false end.
Definition is_figure (w : str) : bool := str_eqb w (L "figure") || str_eqb w (L "figure*").
(** _getFilenames 490-496 *)
Definition cmd_files (n : node) : @res (list str) :=
  match n with
  | Cmd w args => match reqargs args with
                  | [] => Raise IndexError
                  | x :: r => if str_eqb w (L "plottwo") then match r with [] => Raise IndexError | y :: _ => Ok [x; y] end else Ok [x]
                  end
  | _ => Ok []
  end.
Definition get_files (l : list node) : @res (list str) := bindr (mapr cmd_files (filter file_cmd l)) (fun q => Ok (List.concat q)).
(** _setFilenames 497-508: every required argument takes the next name *)
Fixpoint set_req (args : list arg) (names : list str) : @res (list arg * list str) :=
  match args with
  | [] => Ok ([], names)
  | a :: r => if required a then match names with [] => Raise IndexError | x :: names => bindr (set_req r names) (fun p => Ok (Arg true x :: fst p, snd p)) end
              else bindr (set_req r names) (fun p => Ok (a :: fst p, snd p))
  end.
Fixpoint set_cmds (l : list node) (names : list str) : @res (list node) :=
  match l with
  | [] => Ok []
  | Cmd w args :: r => if file_cmd (Cmd w args) then bindr (set_req args names) (fun p => bindr (set_cmds r (snd p)) (fun q => Ok (Cmd w (fst p) :: q))) else bindr (set_cmds r names) (fun q => Ok (Cmd w args :: q))
  | n :: r => bindr (set_cmds r names) (fun q => Ok (n :: q))
  end.
Definition set_files (names : list str) (l : list node) : @res (list node) :=
  bindr (get_files l) (fun old => if Nat.eqb (List.length names) (List.length old) then set_cmds l names else Raise ValueError).
(** prep_for_apj_pub 1336-1348: the names given to the [i]-th figure (from 0) with [k] files, and the dictionary of old and new names as its sequence of assignments *)
Definition letter (i : nat) : @res ascii := if Nat.ltb (97 + i) 256 then Ok (ascii_of_nat (97 + i)) else Raise ValueError.
Definition new_names (i k : nat) : @res (list str) :=
  let base := "f"%char :: decimal (S i) in
  if Nat.eqb k 1 then Ok [base] else mapr (fun j => bindr (letter j) (fun c => Ok (base ++ [c]))) (seq 0 k).
Fixpoint rename (i : nat) (figs : list (list node)) : @res (list (list node) * list (str * str)) :=
  match figs with
  | [] => Ok ([], [])
  | l :: r => bindr (get_files l) (fun old => bindr (new_names i (List.length old)) (fun new => bindr (set_files new l) (fun l' =>
              bindr (rename (S i) r) (fun p => Ok (l' :: fst p, combine old new ++ snd p)))))
  end.
(** dict(...)[old]: the last assignment counts *)
Definition lookup_last (m : list (str * str)) (old : str) : option str := fold_left (fun o p => if str_eqb (fst p) old then Some (snd p) else o) m None.

(** ** Specification *)
(** [below m n]: m is n or lies below it *)
Inductive below : vnode -> node -> Prop :=
| BHere n : below (VN n) n
| BEnv m c w l : In c l -> below m c -> below m (Env w l)
| BMath m c d l : In c l -> below m c -> below m (Math d l)
| BDecl m c p q l : In c l -> below m c -> below m (Decl p q l)
| BArg a w args : In a args -> below (VA a) (Cmd w args)
| BNl t : below (VN Newline) (Comm t true).
Definition has_comment (n : node) : Prop := exists t b, below (VN (Comm t b)) n.
(** the text without comments *)
Fixpoint bare (n : node) : str :=
  match n with
  | Env name c => begin_ ++ name ++ [rb] ++ List.concat (map bare c) ++ end_ ++ name ++ [rb]
  | Math d c => msymb d ++ List.concat (map bare c) ++ msymb d
  | Decl pad cmd c => lb :: pad ++ print cmd ++ List.concat (map bare c) ++ [rb]
  | Comm t b => []
  | _ => print n
  end.
(** after a comment there is no sibling that is or contains a comment *)
Definition apart (l : list node) : Prop := forall a t b d r, l = a ++ Comm t b :: d :: r -> ~ has_comment d.
Definition spaced (n : node) : Prop := forall m, below (VN m) n -> match m with Env _ l | Math _ l | Decl _ _ l => apart l | _ => True end.
Definition comment_count (n : node) : nat := List.length (visit (fun m => match m with VN (Comm _ _) => Some tt | _ => None end) n).

(** ** C59: visiting *)
Lemma in_opt {R} (o : option R) r : In r (opt o) <-> o = Some r.
Proof. destruct o; cbn; split; intros H; [destruct H as [->|[]]; reflexivity|injection H as ->; auto|contradiction|discriminate]. Qed.
Theorem C59_visit : forall R (f : vnode -> option R) n r, In r (visit f n) <-> exists m, below m n /\ f m = Some r.
Proof.
  intros R f n r. induction n as [s| |w l IH|d l IH|w a|w x|p q l IHq IH|t b] using node_ind2; cbn [visit]; rewrite in_app_iff, in_opt.
  - cbn [In]. split; [intros [H|[]]; exists (VN (Text s)); split; [constructor|exact H]|intros (m & B & H); left; inversion B; subst; exact H].
  - cbn [In]. split; [intros [H|[]]; exists (VN Newline); split; [constructor|exact H]|intros (m & B & H); left; inversion B; subst; exact H].
  - rewrite Forall_forall in IH. rewrite in_flat_map. split.
    + intros [H|(c & Hc & H)]; [exists (VN (Env w l)); split; [constructor|exact H]|]. apply (IH c Hc) in H. destruct H as (m & B & H). exists m. split; [econstructor; eauto|exact H].
    + intros (m & B & H). inversion B as [|? c ? ? Hc B'| | | |]; subst; [now left|]. right. exists c. split; [exact Hc|]. apply (IH c Hc). eauto.
  - rewrite Forall_forall in IH. rewrite in_flat_map. split.
    + intros [H|(c & Hc & H)]; [exists (VN (Math d l)); split; [constructor|exact H]|]. apply (IH c Hc) in H. destruct H as (m & B & H). exists m. split; [eapply BMath; eauto|exact H].
    + intros (m & B & H). inversion B as [| |? c ? ? Hc B'| | |]; subst; [now left|]. right. exists c. split; [exact Hc|]. apply (IH c Hc). eauto.
  - rewrite in_flat_map. split.
    + intros [H|(c & Hc & H)]; [exists (VN (Cmd w a)); split; [constructor|exact H]|]. apply in_opt in H. exists (VA c). split; [constructor; exact Hc|exact H].
    + intros (m & B & H). inversion B as [| | | |c ? ? Hc|]; subst; [now left|]. right. exists c. split; [exact Hc|]. now apply in_opt.
  - cbn [In]. split; [intros [H|[]]; exists (VN (TCmd w x)); split; [constructor|exact H]|intros (m & B & H); left; inversion B; subst; exact H].
  - rewrite Forall_forall in IH. rewrite in_flat_map. split.
    + intros [H|(c & Hc & H)]; [exists (VN (Decl p q l)); split; [constructor|exact H]|]. apply (IH c Hc) in H. destruct H as (m & B & H). exists m. split; [eapply BDecl; eauto|exact H].
    + intros (m & B & H). inversion B as [| | |? c ? ? ? Hc B'| |]; subst; [now left|]. right. exists c. split; [exact Hc|]. apply (IH c Hc). eauto.
  - destruct b.
    + rewrite in_opt. split; [intros [H|H]; [exists (VN (Comm t true))|exists (VN Newline)]; (split; [constructor|exact H])|]. intros (m & B & H). inversion B; subst; auto.
    + cbn [In]. split; [intros [H|[]]; exists (VN (Comm t false)); split; [constructor|exact H]|intros (m & B & H); left; inversion B; subst; exact H].
Qed.
(** every result is listed once per node, parents before what is below them and siblings in order: the result for a node is one block *)
Theorem C59_visit_order : forall R (f : vnode -> option R) n,
  (forall w l, n = Env w l \/ (exists d, n = Math d l) \/ (exists p c, n = Decl p c l) -> forall a c b, l = a ++ c :: b ->
     exists u v, visit f n = opt (f (VN n)) ++ u ++ visit f c ++ v /\ u = flat_map (visit f) a /\ v = flat_map (visit f) b).
Proof.
  intros R f n w l H a c b ->. exists (flat_map (visit f) a), (flat_map (visit f) b). repeat split. destruct H as [->|[(d & ->)|(p & q & ->)]]; cbn [visit]; rewrite flat_map_app; reflexivity.
Qed.

(** ** C59: removing the comments *)
Definition strip_go := fix go (l : list node) : list node * nat :=
    match l with
    | [] => ([], O)
    | c :: l => if is_comment c then match l with [] => ([], 1%nat) | d :: l => let (q, k) := go l in (d :: q, S k) end
                else let (c', j) := strip_node c in let (q, k) := go l in (c' :: q, (j + k)%nat)
    end.
Definition bares (l : list node) : str := List.concat (map bare l).
Definition counts (l : list node) : nat := List.length (flat_map (visit (fun m => match m with VN (Comm _ _) => Some tt | _ => None end)) l).
Lemma counts_cons c l : counts (c :: l) = (comment_count c + counts l)%nat.
Proof. unfold counts, comment_count. cbn [flat_map]. now rewrite app_length. Qed.
Lemma no_comment_count n : ~ has_comment n -> comment_count n = O.
Proof.
  intros H. unfold comment_count. destruct (visit _ n) as [|u l] eqn:E; [reflexivity|]. exfalso. apply H. assert (In u (visit (fun m => match m with VN (Comm _ _) => Some tt | _ => None end) n)) as I by (rewrite E; now left). apply C59_visit in I. destruct I as ([[]|] & B & Q); try discriminate. now exists text, newline.
Qed.
Lemma no_comment_bare n : ~ has_comment n -> print n = bare n.
Proof.
  induction n as [s| |w l IH|d l IH|w a|w x|p q l IHq IH|t b] using node_ind2; intros H; cbn [print bare]; try reflexivity.
  - assert (map print l = map bare l) as ->; [|reflexivity]. apply map_ext_in. intros c Hc. rewrite Forall_forall in IH. apply IH; auto. intros (t & b & B). apply H. exists t, b. econstructor; eauto.
  - assert (map print l = map bare l) as ->; [|reflexivity]. apply map_ext_in. intros c Hc. rewrite Forall_forall in IH. apply IH; auto. intros (t & b & B). apply H. exists t, b. eapply BMath; eauto.
  - assert (map print l = map bare l) as ->; [|reflexivity]. apply map_ext_in. intros c Hc. rewrite Forall_forall in IH. apply IH; auto. intros (t & b & B). apply H. exists t, b. eapply BDecl; eauto.
  - exfalso. apply H. exists t, b. constructor.
Qed.
Lemma apart_tail c l : apart (c :: l) -> apart l.
Proof. intros A a t b d r ->. apply (A (c :: a) t b d r). reflexivity. Qed.
Definition goal (n n' : node) (k : nat) : Prop := ~ has_comment n' /\ print n' = bare n /\ k = comment_count n.
Lemma strip_go_spec m : forall l, (List.length l < m)%nat -> apart l -> Forall (fun c => is_comment c = false -> goal c (fst (strip_node c)) (snd (strip_node c))) l -> Forall (fun c => ~ has_comment c) (fst (strip_go l)) /\ prints (fst (strip_go l)) = bares l /\ snd (strip_go l) = counts l.
Proof.
  induction m as [|m IH]; intros l Hm A F; [lia|]. destruct l as [|c l]; [repeat split; constructor|]. pose proof (Forall_inv F) as Hc. pose proof (Forall_inv_tail F) as Fl. cbn beta in Hc. cbn [strip_go]. rewrite counts_cons. cbn [List.length] in Hm.
  destruct (is_comment c) eqn:Ec.
  - destruct c as [| | | | | | |t b]; try discriminate. assert (comment_count (Comm t b) = 1%nat) as Ecc by (destruct b; reflexivity). rewrite Ecc. assert (forall q, bares (Comm t b :: q) = bares q) as Ebb by reflexivity. destruct l as [|d l]; [cbn; auto|]. pose proof (A [] t b d l eq_refl) as Nd. specialize (IH l ltac:(cbn [List.length] in Hm; lia) (apart_tail _ _ (apart_tail _ _ A)) (Forall_inv_tail Fl)). change (strip_go (d :: l)) with (strip_go (d :: l)). destruct (strip_go l) as [q k]. cbn [fst snd] in *. destruct IH as (I1 & I2 & I3). rewrite Ebb, counts_cons, (no_comment_count d Nd), <- I3. repeat split; [constructor; auto|]. unfold prints, bares in *. cbn [map List.concat]. now rewrite I2, (no_comment_bare d Nd).
  - specialize (Hc eq_refl). destruct (strip_node c) as [c' j]. specialize (IH l ltac:(lia) (apart_tail _ _ A) Fl). destruct (strip_go l) as [q k]. cbn [fst snd] in *. destruct IH as (I1 & I2 & I3). destruct Hc as (H1 & H2 & H3). repeat split; [constructor; auto| |lia]. unfold prints, bares in *. cbn [map List.concat]. now rewrite H2, I2.
Qed.
Lemma spaced_child n m : (forall x, below x m -> below x n) -> spaced n -> spaced m.
Proof. intros B S x H. apply S. now apply B. Qed.
Lemma strip_spec n : is_comment n = false -> spaced n -> goal n (fst (strip_node n)) (snd (strip_node n)).
Proof.
  assert (forall l, Forall (fun c => is_comment c = false -> spaced c -> goal c (fst (strip_node c)) (snd (strip_node c))) l -> Forall spaced l -> Forall (fun c => is_comment c = false -> goal c (fst (strip_node c)) (snd (strip_node c))) l) as K by (intros l F1 F2; rewrite Forall_forall in *; auto).
  induction n as [s| |w l IH|d l IH|w a|w x|p q l IHq IH|t b] using node_ind2; intros Hn S; try discriminate; try (solve [split; [intros (t & b & B); inversion B|split; reflexivity]]).
  - assert (Forall spaced l) as Fs by (apply Forall_forall; intros c Hc; eapply spaced_child; [|exact S]; intros x B; econstructor; eauto). assert (apart l) as Al by (apply (S (Env w l)); constructor). specialize (K l IH Fs). pose proof (strip_go_spec (Datatypes.S (List.length l)) l (Nat.lt_succ_diag_r _) Al K) as (I1 & I2 & I3). change (strip_node (Env w l)) with (let (q, k) := strip_go l in (Env w q, k)). destruct (strip_go l) as [q k]. cbn [fst snd] in *. split; [|split].
    + intros (t & b & B). inversion B as [|? c ? ? Hc B'| | | |]; subst. rewrite Forall_forall in I1. apply (I1 c Hc). now exists t, b.
    + cbn [print bare]. fold (prints q) (bares l). now rewrite I2.
    + rewrite I3. reflexivity.
  - assert (Forall spaced l) as Fs by (apply Forall_forall; intros c Hc; eapply spaced_child; [|exact S]; intros x B; eapply BMath; eauto). assert (apart l) as Al by (apply (S (Math d l)); constructor). specialize (K l IH Fs). pose proof (strip_go_spec (Datatypes.S (List.length l)) l (Nat.lt_succ_diag_r _) Al K) as (I1 & I2 & I3). change (strip_node (Math d l)) with (let (q, k) := strip_go l in (Math d q, k)). destruct (strip_go l) as [q k]. cbn [fst snd] in *. split; [|split].
    + intros (t & b & B). inversion B as [| |? c ? ? Hc B'| | |]; subst. rewrite Forall_forall in I1. apply (I1 c Hc). now exists t, b.
    + cbn [print bare]. fold (prints q) (bares l). now rewrite I2.
    + rewrite I3. reflexivity.
  - split; [intros (t & b & B); inversion B|split; [reflexivity|]]. unfold comment_count. cbn [visit opt List.app]. clear. induction a; auto.
  - assert (Forall spaced l) as Fs by (apply Forall_forall; intros c Hc; eapply spaced_child; [|exact S]; intros x B; eapply BDecl; eauto). assert (apart l) as Al by (apply (S (Decl p q l)); constructor). specialize (K l IH Fs). pose proof (strip_go_spec (Datatypes.S (List.length l)) l (Nat.lt_succ_diag_r _) Al K) as (I1 & I2 & I3). change (strip_node (Decl p q l)) with (let (z, k) := strip_go l in (Decl p q z, k)). destruct (strip_go l) as [z k]. cbn [fst snd] in *. split; [|split].
    + intros (t & b & B). inversion B as [| | |? c ? ? ? Hc B'| |]; subst. rewrite Forall_forall in I1. apply (I1 c Hc). now exists t, b.
    + cbn [print bare]. fold (prints z) (bares l). now rewrite I2.
    + rewrite I3. reflexivity.
Qed.
(** removing the comments of a file: none is left, the rest of the text is unchanged and they are counted, if no comment is followed by a sibling that is or holds a comment *)
Theorem C59_strip : forall pre body pre' body' k, spaced (Math false pre) -> spaced (Math false body) -> strip_file (pre, body) = ((pre', body'), k) ->
  Forall (fun n => ~ has_comment n) (pre' ++ body') /\ prints pre' ++ prints body' = List.concat (map bare (pre ++ body)) /\ k = (comment_count (Math false pre) + comment_count (Math false body))%nat.
Proof.
  intros pre body pre' body' k S1 S2. unfold strip_file. pose proof (strip_spec (Math false pre) eq_refl S1) as G1. pose proof (strip_spec (Math false body) eq_refl S2) as G2. cbn [fst snd].
  change (strip_node (Math false pre)) with (let (q, k) := strip_go pre in (Math false q, k)) in *. change (strip_node (Math false body)) with (let (q, k) := strip_go body in (Math false q, k)) in *. destruct (strip_go pre) as [q1 k1]. destruct (strip_go body) as [q2 k2]. intros [= <- <- <-]. cbn [fst snd] in *. destruct G1 as (A1 & A2 & A3). destruct G2 as (B1 & B2 & B3). split; [|split].
  - apply Forall_app. split; apply Forall_forall; intros c Hc (t & b & B); [apply A1|apply B1]; exists t, b; eapply BMath; eauto.
  - cbn [print bare msymb] in A2, B2. fold (prints q1) in A2. fold (prints q2) in B2. cbn [List.app] in A2, B2. injection A2 as A2. injection B2 as B2. apply app_inj_tail in A2. apply app_inj_tail in B2. destruct A2 as (A2 & _). destruct B2 as (B2 & _). rewrite A2, B2. now rewrite map_app, concat_app.
  - now rewrite A3, B3.
Qed.
(** loading a file and removing its comments *)
Definition stripped_text (mk f : str) : @res str := bindr (texfile mk f) (fun p => let q := fst (strip_file p) in Ok (prints (fst q) ++ prints (snd q))).
Example C59_met : stripped_text (L "astppubcomment") (lines ["% a paper"; "\documentclass{a} % class"; "\begin{document} %start"; "%one"; "%two"; "x % y"; "z"; "\end{document}"]%string) = Ok (lines ["\documentclass{a} \begin{document} x z"; "\end{document}"]%string).
Proof. vm_compute. reflexivity. Qed.
(** a comment after another one may stay *)
Theorem C59_adjacent_refuted : fst (strip_node (Env (L "x") [Comm (L "a") true; Comm (L "b") true])) = Env (L "x") [Comm (L "b") true]
  /\ stripped_text (L "astppubcomment") (lines ["\documentclass{a}"; "\begin{document}"; "{\it a {b %c"; "{ %d"; "}}}\end{document}"]%string) = Ok (lines ["\documentclass{a}"; "\begin{document}"; "{\it a {b { }}}%d\end{document}"]%string).
Proof. split; [reflexivity|]. vm_compute. reflexivity. Qed.
(** an empty line after a comment separates paragraphs; it is gone with the comment *)
Theorem C59_paragraph_refuted : stripped_text (L "astppubcomment") (lines ["\documentclass{a}"; "\begin{document}"; "One. % c"; ""; "Two."; "\end{document}"]%string) = Ok (lines ["\documentclass{a}"; "\begin{document}"; "One. "; "Two."; "\end{document}"]%string).
Proof. vm_compute. reflexivity. Qed.

(** ** C60: arguments of commands *)
Lemma req_filter b l : filter (fun a => Bool.eqb (required a) b) l = if b then filter required l else filter (fun a => negb (required a)) l.
Proof. induction l as [|[[|] t] l IH]; destruct b; cbn [filter required Bool.eqb negb]; rewrite ?IH; reflexivity. Qed.
Definition texts_of (b : bool) (l : list arg) : list str := if b then reqargs l else optargs l.
Lemma texts_filter b l : texts_of b l = map atext (filter (fun a => Bool.eqb (required a) b) l).
Proof. rewrite req_filter. destruct b; reflexivity. Qed.
Lemma assign_kinds b l : forall v, map required (assign b v l) = map required l.
Proof. induction l as [|a l IH]; intros v; cbn [assign]; [reflexivity|]. destruct (Bool.eqb (required a) b) eqn:E; [|cbn; now rewrite IH]. apply eqb_prop in E. destruct v; cbn; rewrite IH; congruence. Qed.
Lemma assign_get b l : forall v, List.length (filter (fun a => Bool.eqb (required a) b) l) = List.length v -> texts_of b (assign b v l) = v.
Proof.
  induction l as [|a l IH]; intros v E; rewrite texts_filter; [destruct v; [reflexivity|discriminate]|]. cbn [assign filter] in *. destruct (Bool.eqb (required a) b) eqn:Ea.
  - destruct v as [|x v]; [discriminate|]. cbn [filter required]. rewrite eqb_reflx. cbn [map atext]. rewrite <- texts_filter, IH; [reflexivity|]. cbn in E. congruence.
  - cbn [filter]. rewrite Ea. rewrite <- texts_filter. now apply IH.
Qed.
Lemma assign_other b l : forall v, filter (fun a => negb (Bool.eqb (required a) b)) (assign b v l) = filter (fun a => negb (Bool.eqb (required a) b)) l.
Proof.
  induction l as [|a l IH]; intros v; [reflexivity|]. cbn [assign filter]. destruct (Bool.eqb (required a) b) eqn:Ea; cbn [negb].
  - destruct v as [|x v]; cbn [filter required]; rewrite ?eqb_reflx, ?Ea; cbn [negb]; apply IH.
  - cbn [filter]. rewrite Ea. cbn [negb]. now rewrite IH.
Qed.
Lemma other_texts b l : texts_of (negb b) l = map atext (filter (fun a => negb (Bool.eqb (required a) b)) l).
Proof. rewrite texts_filter. f_equal. apply filter_ext. intros [[|] t]; destruct b; reflexivity. Qed.
(** assigning the required (or optional) arguments of a command: they read back, the others stay, and with the same number of them every argument keeps its place *)
Theorem C60_arguments : forall b v l, texts_of b (set_args b v l) = v /\ texts_of (negb b) (set_args b v l) = texts_of (negb b) l /\ (List.length (texts_of b l) = List.length v -> map required (set_args b v l) = map required l).
Proof.
  intros b v l. unfold set_args. destruct (Nat.eqb_spec (List.length (filter (fun a => Bool.eqb (required a) b) l)) (List.length v)) as [E|E].
  - split; [now apply assign_get|]. split; [|intros _; apply assign_kinds]. rewrite !other_texts. now rewrite assign_other.
  - split; [|split; [|intros H; exfalso; apply E; rewrite texts_filter, map_length in H; exact H]].
    + rewrite texts_filter, filter_app, map_app. replace (filter (fun a => Bool.eqb (required a) b) (filter (fun a => negb (Bool.eqb (required a) b)) l)) with (@nil arg). { cbn [map List.app]. induction v as [|x v IH]; [reflexivity|]. cbn [map filter required]. rewrite eqb_reflx. cbn [map atext]. f_equal. clear E IH. induction v as [|y v IH]; [reflexivity|]. cbn [map filter required]. rewrite eqb_reflx. cbn [map atext]. now rewrite IH. }
      clear. induction l as [|a l IH]; [reflexivity|]. cbn [filter]. destruct (Bool.eqb (required a) b) eqn:Ea; cbn [negb]; [exact IH|]. cbn [filter]. now rewrite Ea.
    + rewrite !other_texts, filter_app, map_app. replace (filter (fun a => negb (Bool.eqb (required a) b)) (map (Arg b) v)) with (@nil arg). { cbn [map]. rewrite app_nil_r. clear. induction l as [|a l IH]; [reflexivity|]. cbn [filter]. destruct (negb (Bool.eqb (required a) b)) eqn:Ea; [|exact IH]. cbn [filter]. rewrite Ea. cbn [map]. now rewrite IH. }
      clear. induction v as [|y v IH]; [reflexivity|]. cbn [map filter required]. rewrite eqb_reflx. exact IH.
Qed.

(** ** C60: the files of a figure *)
(** a plotting command has exactly its file names as required arguments *)
Definition plot_ok (n : node) : Prop := match n with Cmd w args => file_cmd n = true -> List.length (reqargs args) = if str_eqb w (L "plottwo") then 2%nat else 1%nat | _ => True end.
(** the text of a figure apart from the required arguments of plotting commands *)
Definition frame (n : node) : node := match n with Cmd w args => if file_cmd n then Cmd w (map (fun a => if required a then Arg true [] else a) args) else n | _ => n end.
Lemma set_req_spec args : forall names p, set_req args names = Ok p -> names = reqargs (fst p) ++ snd p /\ map (fun a => if required a then Arg true [] else a) (fst p) = map (fun a => if required a then Arg true [] else a) args /\ List.length (reqargs (fst p)) = List.length (reqargs args).
Proof.
  induction args as [|[[|] t] args IH]; intros names p; cbn [set_req required].
  - intros [= <-]. auto.
  - destruct names as [|x names]; [discriminate|]. destruct (set_req args names) as [q|e|] eqn:E; cbn [bindr]; try discriminate. intros [= <-]. destruct (IH _ _ E) as (I1 & I2 & I3). cbn [fst snd]. unfold reqargs in *. cbn [filter required map atext List.app List.length]. split; [now rewrite I1 at 1|]. split; [now rewrite I2|congruence].
  - destruct (set_req args names) as [q|e|] eqn:E; cbn [bindr]; try discriminate. intros [= <-]. destruct (IH _ _ E) as (I1 & I2 & I3). cbn [fst snd]. unfold reqargs in *. cbn [filter required map]. split; [exact I1|]. split; [now rewrite I2|exact I3].
Qed.
Lemma set_req_total args : forall names, (List.length (reqargs args) <= List.length names)%nat -> exists p, set_req args names = Ok p.
Proof.
  induction args as [|[[|] t] args IH]; intros names H; cbn [set_req required]; [eauto| |].
  - unfold reqargs in H. cbn [filter required map List.length] in H. destruct names as [|x names]; [cbn in H; lia|]. destruct (IH names) as (p & ->); [unfold reqargs; cbn in H; lia|]. cbn [bindr]. eauto.
  - destruct (IH names H) as (p & ->). cbn [bindr]. eauto.
Qed.
Lemma cmd_files_ok w args : file_cmd (Cmd w args) = true -> plot_ok (Cmd w args) -> cmd_files (Cmd w args) = Ok (reqargs args).
Proof.
  intros F P. specialize (P F). cbn [cmd_files]. destruct (reqargs args) as [|x [|y [|z r]]] eqn:E; destruct (str_eqb w (L "plottwo")); cbn in P; try discriminate; reflexivity.
Qed.
Fixpoint files (l : list node) : list str := match l with [] => [] | Cmd w args :: r => if file_cmd (Cmd w args) then reqargs args ++ files r else files r | _ :: r => files r end.
Lemma get_files_ok l : Forall plot_ok l -> get_files l = Ok (files l).
Proof.
  unfold get_files. induction 1 as [|n l Hn F IH]; [reflexivity|]. cbn [filter files]. destruct n as [s| |w c|d c|w args|w c|p q c|t b]; try exact IH. destruct (file_cmd (Cmd w args)) eqn:Ef; [|exact IH]. cbn [mapr]. rewrite (cmd_files_ok _ _ Ef Hn). destruct (mapr cmd_files (filter file_cmd l)) as [q|e|]; cbn [bindr] in *; try discriminate. injection IH as IH. cbn [List.concat]. now rewrite IH.
Qed.
Lemma set_cmds_spec l : Forall plot_ok l -> forall names, (List.length (files l) <= List.length names)%nat -> exists l', set_cmds l names = Ok l' /\ names = files l' ++ skipn (List.length (files l)) names /\ map frame l' = map frame l /\ Forall plot_ok l' /\ List.length (files l') = List.length (files l).
Proof.
  induction 1 as [|n l Hn F IH]; intros names H; [exists []; cbn; auto|]. destruct n as [s| |w c|d c|w args|w c|p q c|t b]; cbn [set_cmds files] in *;
    try (destruct (IH names H) as (l' & -> & I1 & I2 & I3 & I4); cbn [bindr]; eexists; split; [reflexivity|]; cbn [files map]; split; [exact I1|]; split; [now rewrite I2|]; split; [constructor; [exact Logic.I|exact I3]|exact I4]).
  destruct (file_cmd (Cmd w args)) eqn:Ef.
  - rewrite app_length in H. destruct (set_req_total args names ltac:(lia)) as ([a2 n2] & E). rewrite E. cbn [bindr fst snd]. destruct (set_req_spec _ _ _ E) as (J1 & J2 & J3). cbn [fst snd] in *. assert (List.length (files l) <= List.length n2)%nat as H2 by (subst names; rewrite app_length in H; lia). destruct (IH n2 H2) as (l' & -> & I1 & I2 & I3 & I4). cbn [bindr]. eexists. split; [reflexivity|].
    assert (file_cmd (Cmd w a2) = true) as Ef2 by exact Ef. cbn [files map]. rewrite Ef2. split; [|split; [|split]].
    + rewrite J1 at 1. rewrite <- app_assoc. f_equal. rewrite app_length, <- J3, J1. rewrite skipn_app, skipn_all2 by lia. replace (List.length (reqargs a2) + List.length (files l) - List.length (reqargs a2))%nat with (List.length (files l)) by lia. exact I1.
    + cbn [frame]. rewrite Ef, Ef2, J2. now rewrite I2.
    + constructor; [|exact I3]. intros _. rewrite J3. now apply Hn.
    + rewrite !app_length. lia.
  - destruct (IH names H) as (l' & -> & I1 & I2 & I3 & I4). cbn [bindr]. eexists. split; [reflexivity|]. cbn [files map]. rewrite Ef. split; [exact I1|]. split; [now rewrite I2|]. split; [constructor; [exact Hn|exact I3]|exact I4].
Qed.
(** assigning as many names as the figure has files: they read back and only those arguments change; any other number is refused *)
Theorem C60_files : forall names l, Forall plot_ok l ->
  exists old, get_files l = Ok old /\
  (List.length names = List.length old -> exists l', set_files names l = Ok l' /\ get_files l' = Ok names /\ map frame l' = map frame l) /\
  (List.length names <> List.length old -> set_files names l = Raise ValueError).
Proof.
  intros names l F. exists (files l). rewrite (get_files_ok l F). split; [reflexivity|]. unfold set_files. rewrite (get_files_ok l F). cbn [bindr]. split; intros H.
  - apply Nat.eqb_eq in H as H'. rewrite H'. destruct (set_cmds_spec l F names ltac:(lia)) as (l' & E & I1 & I2 & I3 & I4). exists l'. split; [exact E|]. split; [|exact I2]. rewrite (get_files_ok l' I3). f_equal. rewrite I1. rewrite skipn_all2 by lia. now rewrite app_nil_r.
  - apply Nat.eqb_neq in H. now rewrite H.
Qed.
(** \plotfiddle has more required arguments than file names *)
Theorem C60_plotfiddle_refuted : set_files [L "f1"] [Cmd (L "plotfiddle") [Arg true (L "a.ps"); Arg true (L "2in"); Arg true (L "0")]] = Raise IndexError.
Proof. reflexivity. Qed.

(** ** C60: the names given to the figures *)
Lemma decimal_inj m n : decimal m = decimal n -> m = n.
Proof. intros E. apply (f_equal parse_index) in E. rewrite !parse_decimal in E. congruence. Qed.
Lemma new_names_spec i k new : new_names i k = Ok new -> List.length new = k /\ NoDup new /\ forall x, In x new -> exists c, x = "f"%char :: decimal (S i) ++ c /\ (c = [] \/ exists a, c = [a] /\ (57 < nat_of_ascii a)%nat).
Proof.
  unfold new_names. destruct (Nat.eqb_spec k 1) as [->|Nk].
  - intros [= <-]. split; [reflexivity|]. split; [repeat constructor; intros []|]. intros x [<-|[]]. exists []. rewrite app_nil_r. auto.
  - intros H. apply mapr_ok in H. set (f := fun j => bindr (letter j) (fun c => Ok (("f"%char :: decimal (S i)) ++ [c]))) in H.
    assert (forall s n new, Forall2 (fun a b => f a = Ok b) (seq s n) new -> List.length new = n /\ NoDup new /\ forall x, In x new -> exists j a, (s <= j)%nat /\ x = "f"%char :: decimal (S i) ++ [a] /\ nat_of_ascii a = (97 + j)%nat) as K.
    { clear. intros s n. revert s. induction n as [|n IH]; intros s new H; cbn [seq] in H.
      - remember (@nil nat) as e eqn:Ee. destruct H; [|discriminate]. repeat split; [constructor|]. intros x [].
      - remember (s :: seq (S s) n) as e eqn:Ee. destruct H as [|a b l new Ha H]; [discriminate|]. injection Ee as -> ->. destruct (IH _ _ H) as (I1 & I2 & I3).
        unfold f, letter in Ha. destruct (Nat.ltb_spec (97 + s) 256) as [Hs|Hs]; cbn [bindr] in Ha; [|discriminate]. injection Ha as <-. assert (nat_of_ascii (ascii_of_nat (97 + s)) = (97 + s)%nat) as En by (apply nat_ascii_embedding; lia).
        split; [cbn [List.length]; congruence|]. split.
        + constructor; [|exact I2]. intros Hin. destruct (I3 _ Hin) as (j & c & Hj & E & Ec). injection E as E. apply app_inj_tail in E. destruct E as (_ & E). rewrite <- E in Ec. change (nat_of_ascii (ascii_of_nat (97 + s)) = (97 + j)%nat) in Ec. rewrite En in Ec. lia.
        + intros x [<-|Hx]; [exists s, (ascii_of_nat (97 + s)); repeat split; auto|]. destruct (I3 _ Hx) as (j & c & Hj & Hr). exists j, c. split; [lia|exact Hr]. }
    destruct (K 0%nat k new H) as (K1 & K2 & K3). split; [exact K1|]. split; [exact K2|]. intros x Hx. destruct (K3 x Hx) as (j & a & _ & -> & Ea). exists [a]. split; [reflexivity|]. right. exists a. split; [reflexivity|lia].
Qed.
Lemma name_figure i j c d : (c = [] \/ exists a, c = [a] /\ (57 < nat_of_ascii a)%nat) -> (d = [] \/ exists a, d = [a] /\ (57 < nat_of_ascii a)%nat) -> "f"%char :: decimal (S i) ++ c = "f"%char :: decimal (S j) ++ d -> i = j.
Proof.
  assert (forall n m a, (57 < nat_of_ascii a)%nat -> decimal n <> decimal m ++ [a]) as K. { intros n m a Ha E. apply (decimal_no a n); [lia|]. rewrite E. apply in_or_app. right. now left. }
  intros Hc Hd E. injection E as E. destruct Hc as [->|(a & -> & Ha)]; destruct Hd as [->|(b & -> & Hb)]; rewrite ?app_nil_r in E.
  - apply decimal_inj in E. congruence.
  - exfalso. eapply K; eauto.
  - exfalso. symmetry in E. eapply K; eauto.
  - apply app_inj_tail in E. destruct E as (E & _). apply decimal_inj in E. congruence.
Qed.
Lemma combine_snd {A B} (l : list A) : forall m : list B, List.length l = List.length m -> map snd (combine l m) = m /\ map fst (combine l m) = l.
Proof. induction l as [|a l IH]; intros [|b m] E; cbn in *; try discriminate; auto. destruct (IH m) as (-> & ->); [congruence|auto]. Qed.
Lemma rename_spec figs : Forall (Forall plot_ok) figs -> forall i figs' m, rename i figs = Ok (figs', m) ->
  NoDup (map snd m) /\ (forall x, In x (map snd m) -> exists j c, (i <= j)%nat /\ x = "f"%char :: decimal (S j) ++ c /\ (c = [] \/ exists a, c = [a] /\ (57 < nat_of_ascii a)%nat)) /\
  map snd m = List.concat (map files figs') /\ map fst m = List.concat (map files figs) /\ Forall2 (fun l l' => map frame l' = map frame l /\ List.length (files l') = List.length (files l)) figs figs' /\ Forall (Forall plot_ok) figs'.
Proof.
  induction 1 as [|l figs Hl F IH]; intros i figs' m; cbn [rename]; [intros [= <- <-]; cbn; repeat split; try constructor; intros x []|]. rewrite (get_files_ok l Hl). cbn [bindr]. destruct (new_names i (List.length (files l))) as [new|e|] eqn:En; cbn [bindr]; try discriminate. destruct (new_names_spec _ _ _ En) as (N1 & N2 & N3).
  unfold set_files. rewrite (get_files_ok l Hl). cbn [bindr]. rewrite N1, Nat.eqb_refl. destruct (set_cmds_spec l Hl new ltac:(lia)) as (l' & -> & I1 & I2 & I3 & I4). cbn [bindr]. destruct (rename (S i) figs) as [[fs m2]|e|] eqn:Er; cbn [bindr]; try discriminate. intros [= <- <-]. cbn [fst snd]. destruct (IH _ _ _ Er) as (R1 & R2 & R3 & R4 & R5 & R6). rewrite skipn_all2, app_nil_r in I1 by lia.
  destruct (combine_snd (files l) new ltac:(congruence)) as (C1 & C2). rewrite !map_app, C1, C2. split; [|split; [|split; [|split; [|split]]]].
  - assert (forall x, In x new -> ~ In x (map snd m2)) as D. { intros x Hx Hy. destruct (N3 x Hx) as (c & -> & Hc). destruct (R2 _ Hy) as (j & d & Hj & E & Hd). pose proof (name_figure i j c d Hc Hd E). lia. }
    clear -N2 R1 D. induction N2 as [|x new Hx N2 IH]; [exact R1|]. cbn [List.app]. constructor; [|apply IH; intros y Hy; apply D; now right]. intros H. apply in_app_or in H. destruct H as [H|H]; [contradiction|]. apply (D x); [now left|exact H].
  - intros x Hx. apply in_app_or in Hx. destruct Hx as [Hx|Hx]; [destruct (N3 x Hx) as (c & H); exists i, c; auto|]. destruct (R2 x Hx) as (j & c & Hj & H). exists j, c. split; [lia|exact H].
  - cbn [map List.concat]. now rewrite R3, <- I1.
  - cbn [map List.concat]. now rewrite R4.
  - constructor; auto.
  - constructor; auto.
Qed.
(** the figures of a paper: no two files get the same name, the figures show the new names and nothing else changes *)
Theorem C60_distinct : forall figs figs' m, Forall (Forall plot_ok) figs -> rename 0 figs = Ok (figs', m) ->
  NoDup (map snd m) /\ mapr get_files figs = Ok (map (fun l => files l) figs) /\ map fst m = List.concat (map files figs) /\
  (exists q, mapr get_files figs' = Ok q /\ List.concat q = map snd m) /\ Forall2 (fun l l' => map frame l' = map frame l) figs figs'.
Proof.
  intros figs figs' m F E. destruct (rename_spec figs F 0 figs' m E) as (R1 & R2 & R3 & R4 & R5 & R6).
  assert (forall f, Forall (Forall plot_ok) f -> mapr get_files f = Ok (map files f)) as G. { induction 1 as [|l f Hl Hf IH]; [reflexivity|]. cbn [mapr map]. rewrite (get_files_ok l Hl), IH. reflexivity. }
  split; [exact R1|]. split; [now apply G|]. split; [exact R4|]. split; [exists (map files figs'); split; [now apply G|now rewrite R3]|]. clear -R5. induction R5 as [|a b l q (H & _) R5 IH]; constructor; auto.
Qed.
(** when no file is used twice, the dictionary sends every old name to its new one *)
Lemma lookup_app m1 m2 x : lookup_last (m1 ++ m2) x = match lookup_last m2 x with Some v => Some v | None => lookup_last m1 x end.
Proof.
  unfold lookup_last. rewrite fold_left_app. generalize (fold_left (fun o p => if str_eqb (fst p) x then Some (snd p) else o) m1 None) as o. induction m2 as [|p m2 IH] using rev_ind; intros o; [destruct o; reflexivity|]. rewrite !fold_left_app. cbn [fold_left]. destruct (str_eqb (fst p) x); [reflexivity|]. apply IH.
Qed.
Lemma lookup_none m x : ~ In x (map fst m) -> lookup_last m x = None.
Proof.
  induction m as [|p m IH] using rev_ind; intros N; [reflexivity|]. rewrite map_app, in_app_iff in N. rewrite lookup_app. unfold lookup_last at 1. cbn [fold_left]. destruct (str_eqb (fst p) x) eqn:E; [exfalso; apply eqs in E; apply N; right; now left|]. apply IH. tauto.
Qed.
Theorem C60_copied : forall figs figs' m, Forall (Forall plot_ok) figs -> rename 0 figs = Ok (figs', m) -> NoDup (List.concat (map files figs)) -> forall old new, In (old, new) m -> lookup_last m old = Some new.
Proof.
  intros figs figs' m F E N old new. destruct (rename_spec figs F 0 figs' m E) as (_ & _ & _ & R4 & _). rewrite <- R4 in N. clear -N. intros H. apply in_split in H. destruct H as (m1 & m2 & ->). rewrite map_app in N. cbn [map fst] in N. apply NoDup_remove_2 in N. rewrite in_app_iff in N. rewrite lookup_app. change ((old, new) :: m2) with ([(old, new)] ++ m2). rewrite lookup_app. rewrite (lookup_none m2) by tauto. unfold lookup_last. cbn [fold_left fst snd]. assert (str_eqb old old = true) as ->; [|reflexivity]. clear. induction old as [|a s IH]; [reflexivity|]. cbn. now rewrite Ascii.eqb_refl.
Qed.
(** the same file in two figures: the figures ask for f1 and f2, but the file is copied to f2 only *)
Theorem C60_twice_refuted : exists figs figs' m, Forall (Forall plot_ok) figs /\ rename 0 figs = Ok (figs', m) /\ map (fun l => files l) figs' = [[L "f1"]; [L "f2"]] /\ (forall old, lookup_last m old <> Some (L "f1")).
Proof.
  exists [[Cmd (L "plotone") [Arg true (L "a")]]; [Cmd (L "plotone") [Arg true (L "a")]]]. do 2 eexists. split; [repeat constructor|]. split; [vm_compute; reflexivity|]. split; [reflexivity|]. intros old. unfold lookup_last. cbn [fold_left fst snd]. destruct (str_eqb _ old); discriminate.
Qed.
Example C60_met : exists figs', rename 0 [[Text (L "x"); Cmd (L "plottwo") [Arg true (L "a"); Arg true (L "b")]]; [Cmd (L "includegraphics") [Arg false (L "width=2in"); Arg true (L "c")]; Cmd (L "label") [Arg true (L "d")]]] = Ok (figs', [(L "a", L "f1a"); (L "b", L "f1b"); (L "c", L "f2")])
  /\ Forall (Forall plot_ok) [[Text (L "x"); Cmd (L "plottwo") [Arg true (L "a"); Arg true (L "b")]]; [Cmd (L "includegraphics") [Arg false (L "width=2in"); Arg true (L "c")]; Cmd (L "label") [Arg true (L "d")]]].
Proof. eexists. split; [vm_compute; reflexivity|]. repeat constructor; vm_compute; congruence. Qed.
(** the hypotheses of C57 and of C59_strip are met *)
Example C57_met : plain (L "It is $x^2$ \cite[see][p. 3]{a} \begin{center}b\end{center}, {c}[d]").
Proof.
  split; [apply cleanb_ok; vm_compute; reflexivity|]. split; [apply tidyb_ok; vm_compute; reflexivity|]. repeat split; intros H; apply mem_spec in H; vm_compute in H; discriminate.
Qed.
Example C59_spaced_met : spaced (Math false [Comm (L "a") true; Text (L "x"); Env (L "e") [Text (L "y"); Comm (L "b") true; Text []; Comm (L "c") true]]).
Proof.
  assert (forall l, (forall i, (i < List.length l)%nat -> match nth_error l i, nth_error l (S i) with Some (Comm _ _), Some d => ~ has_comment d | _, _ => True end) -> apart l) as K. { intros l H a t b d r ->. specialize (H (List.length a)). rewrite app_length in H. rewrite nth_error_app2 in H by lia. rewrite Nat.sub_diag in H. rewrite (nth_error_app2 a) in H by lia. replace (S (List.length a) - List.length a)%nat with 1%nat in H by lia. cbn in H. apply H. lia. }
  assert (forall s, ~ has_comment (Text s)) as Nt by (intros s (t & b & B); inversion B).
  intros m B. inversion B as [|? c ? ? Hc B'|? c ? ? Hc B'| | |]; subst.
  - apply K. intros [|[|[|i]]] Hi; cbn in *; auto; lia.
  - cbn in Hc. destruct Hc as [<-|[<-|[<-|[]]]]; inversion B' as [|? c ? ? Hc B''| | | |]; subst; try exact I.
    + apply K. intros [|[|[|[|i]]]] Hi; cbn in *; auto; lia.
    + cbn in Hc. destruct Hc as [<-|[<-|[<-|[<-|[]]]]]; inversion B''; subst; exact I.
Qed.
