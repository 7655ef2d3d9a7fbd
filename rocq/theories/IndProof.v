(** * IndProof: C137, change_indentation of a docstring. *)
From Coq Require Import List Arith Bool Ascii Lia.
From Verif Require Import IndModel.
Import ListNotations.

Arguments is !a !c.
Arguments ws !c.

(** ** Specification *)
(** a text is a first line and the lines after each newline *)
Definition text (h : list ascii) (t : list (list ascii)) : list ascii := h ++ flat_map (cons nl) t.
Definition one_line (l : list ascii) := ~ In nl l.
Definition blank (l : list ascii) := Forall (fun c => ws c = true) l.
(** a line without a leading return and without up to [n] leading spaces *)
Fixpoint less_sp (n : nat) (l : list ascii) : list ascii :=
  match n, l with S k, c :: r => if is sp c then less_sp k r else l | _, _ => l end.
Definition dedent (n : nat) (l : list ascii) : list ascii := match l with c :: r => if is cr c then less_sp n r else less_sp n l | [] => [] end.
(** [a] without the blanks at its end *)
Definition trimmed (a b : list ascii) := exists e, a = b ++ e /\ blank e /\ (b = [] \/ exists p c, b = p ++ [c] /\ ws c = false).

(** ** Lines *)
Fixpoint lines (s : list ascii) : list ascii * list (list ascii) :=
  match s with
  | [] => ([], [])
  | c :: r => let '(h, t) := lines r in if is nl c then ([], h :: t) else (c :: h, t)
  end.
Lemma is_eq a c : is a c = true <-> a = c. Proof. apply Ascii.eqb_eq. Qed.
Lemma lines_text s : s = text (fst (lines s)) (snd (lines s)).
Proof.
  induction s as [|c r IH]; [reflexivity|]. simpl. destruct (lines r) as [h t]. simpl in IH.
  destruct (is nl c) eqn:E; simpl; unfold text in *; simpl; [apply is_eq in E; subst c|]; rewrite IH at 1; reflexivity.
Qed.
Lemma lines_one s : one_line (fst (lines s)) /\ Forall one_line (snd (lines s)).
Proof.
  unfold one_line. induction s as [|c r IH]; [simpl; auto|]. simpl. destruct (lines r) as [h t]. simpl in IH. destruct IH as [A B].
  destruct (is nl c) eqn:E; simpl; split; auto. intros [->|I]; [|contradiction].
  assert (is nl nl = true) by now apply is_eq. congruence.
Qed.
Lemma lines_of h t : one_line h -> Forall one_line t -> lines (text h t) = (h, t).
Proof.
  revert h. induction t as [|l t IH]; intros h H T; unfold text.
  - simpl. rewrite app_nil_r. induction h as [|c h IH]; [reflexivity|]. simpl. rewrite IH by (intro; apply H; simpl; auto).
    destruct (is nl c) eqn:E; [|reflexivity]. apply is_eq in E. exfalso; apply H; simpl; auto.
  - inversion T; subst. induction h as [|c h IHh].
    + simpl. fold (text l t). rewrite IH by assumption. reflexivity.
    + simpl in *. rewrite IHh by (intro; apply H; simpl; auto).
      destruct (is nl c) eqn:E; [|reflexivity]. apply is_eq in E. exfalso; apply H; simpl; auto.
Qed.
Lemma less_sp_0 l : less_sp 0 l = l. Proof. destruct l; reflexivity. Qed.
Lemma sub_lines n ind s :
  let F := flat_map (fun l => nl :: ind ++ dedent n l) (snd (lines s)) in
  sub n ind Copy s = fst (lines s) ++ F /\ sub n ind AfterNl s = dedent n (fst (lines s)) ++ F /\
  (forall k, sub n ind (Drop k) s = less_sp k (fst (lines s)) ++ F).
Proof.
  induction s as [|c r (IC & IA & ID)]; simpl.
  - repeat split. intros [|k]; reflexivity.
  - destruct (lines r) as [h t]. simpl in IC, IA, ID. cbn zeta.
    assert (C : (if is nl c then nl :: ind ++ sub n ind AfterNl r else c :: sub n ind Copy r) =
                fst (if is nl c then ([], h :: t) else (c :: h, t)) ++ flat_map (fun l => nl :: ind ++ dedent n l) (snd (if is nl c then ([], h :: t) else (c :: h, t)))).
    { destruct (is nl c); simpl; [rewrite IA, <- app_assoc; reflexivity|now rewrite IC]. }
    assert (K : forall k, match k with S k' => if is sp c then sub n ind (Drop k') r else (if is nl c then nl :: ind ++ sub n ind AfterNl r else c :: sub n ind Copy r) | 0 => if is nl c then nl :: ind ++ sub n ind AfterNl r else c :: sub n ind Copy r end
       = less_sp k (fst (if is nl c then ([], h :: t) else (c :: h, t))) ++ flat_map (fun l => nl :: ind ++ dedent n l) (snd (if is nl c then ([], h :: t) else (c :: h, t)))).
    { intros [|k]; [now rewrite less_sp_0|]. destruct (is sp c) eqn:E.
      - apply is_eq in E. subst c. simpl. apply ID.
      - rewrite C. destruct (is nl c); simpl; [reflexivity|]. now rewrite E. }
    split; [exact C|split; [|exact K]].
    destruct (is cr c) eqn:E.
    + apply is_eq in E. subst c. simpl. apply ID.
    + rewrite K. destruct (is nl c); simpl.
      * destruct n; reflexivity.
      * now rewrite E.
Qed.

(** ** Stripping *)
Lemma lstrip_blank a c r : blank a -> ws c = false -> lstrip (a ++ c :: r) = c :: r.
Proof. intros B W. induction B as [|x a H B IH]; simpl; [now rewrite W|now rewrite H]. Qed.
Lemma lstrip_cut s : exists e, s = e ++ lstrip s /\ blank e /\ (lstrip s = [] \/ exists c r, lstrip s = c :: r /\ ws c = false).
Proof.
  induction s as [|c s (e & E & B & H)]; simpl; [exists []; repeat split; auto; constructor|].
  destruct (ws c) eqn:W.
  - exists (c :: e). simpl. rewrite <- E. repeat split; auto. now constructor.
  - exists []. simpl. repeat split; [constructor|]. right; eauto.
Qed.
Lemma rstrip_trim s : trimmed s (rstrip s).
Proof.
  unfold rstrip, trimmed. destruct (lstrip_cut (rev s)) as (e & E & B & H). exists (rev e). split; [|split].
  - rewrite <- rev_app_distr, <- E, rev_involutive. reflexivity.
  - unfold blank in *. rewrite Forall_forall in *. intros x I. apply B. now apply in_rev.
  - destruct H as [->|(c & r & -> & W)]; [now left|]. right. exists (rev r), c. auto.
Qed.
Lemma count_rep n c b : ws c = false -> count_sp (repeat sp n ++ c :: b) = n.
Proof. intros W. induction n as [|n IH]; simpl; [|now rewrite IH]. destruct (is sp c) eqn:E; [|reflexivity]. apply is_eq in E. subst c. discriminate. Qed.
Lemma skip_rep n (l : list ascii) : skipn n (repeat sp n ++ l) = l. Proof. induction n; simpl; auto. Qed.
Lemma less_rep n l : less_sp n (repeat sp n ++ l) = l.
Proof. induction n as [|n IH]; simpl; [apply less_sp_0|exact IH]. Qed.
Lemma blank_rep n : blank (repeat sp n). Proof. induction n; constructor; auto. Qed.
Lemma find_here c r : ws c = false -> find_dedent (c :: r) = Some 0.
Proof.
  intros W. unfold find_dedent. destruct (is nl c) eqn:E; [apply is_eq in E; subst c; discriminate|].
  simpl. destruct (is sp c) eqn:F; [apply is_eq in F; subst c; discriminate|]. simpl. now rewrite W.
Qed.

Lemma find_rep p n c r : p = [] \/ p = [nl] \/ p = [nl; cr] -> ws c = false -> find_dedent (p ++ repeat sp (S n) ++ c :: r) = Some (S n).
Proof.
  intros P W. assert (K := count_rep (S n) c r W). assert (Q := skip_rep (S n) (c :: r)).
  assert (G : match skipn (count_sp (repeat sp (S n) ++ c :: r)) (repeat sp (S n) ++ c :: r) with x :: _ => if ws x then None else Some (count_sp (repeat sp (S n) ++ c :: r)) | [] => None end = Some (S n)).
  { rewrite K, Q. cbn iota beta. rewrite W. now rewrite ?K. }
  assert (E : exists u, repeat sp (S n) ++ c :: r = sp :: u) by (eexists; reflexivity). destruct E as [u E]. rewrite E in *.
  destruct P as [->|[->| ->]]; exact G.
Qed.

(** ** Theorems *)
(** None and the empty string *)
Theorem C137_empty ind : change_indentation None ind = [] /\ change_indentation (Some []) ind = [].
Proof. split; reflexivity. Qed.
(** a text that starts without indentation, on its first line or after one newline, is returned as it is, whatever the indentation asked for *)
Theorem C137_flush_unchanged p c r ind : p = [] \/ p = [nl] \/ p = [nl; cr] -> ws c = false -> change_indentation (Some (p ++ c :: r)) ind = p ++ c :: r.
Proof.
  intros P W.
  assert (N : forall a, ws a = true -> is a c = false).
  { intros a A. destruct (is a c) eqn:E; [apply is_eq in E; subst; congruence|reflexivity]. }
  destruct P as [->|[->| ->]]; simpl; unfold find_dedent; simpl; rewrite ?(N nl), ?(N cr), ?(N sp) by reflexivity; simpl; rewrite ?(N sp) by reflexivity; simpl; rewrite ?W; reflexivity.
Qed.
(** ... and so is one with only spaces in front of other white space, or at all *)
Theorem C137_blank_line_unchanged p n q ind : p = [] \/ p = [nl] -> (n = 0 -> p = [] -> forall r, q <> nl :: r) -> (n = 0 -> p = [nl] -> forall r, q <> cr :: r) ->
  q = [] \/ (exists c r, q = c :: r /\ ws c = true /\ c <> sp) -> change_indentation (Some (p ++ repeat sp n ++ q)) ind = p ++ repeat sp n ++ q.
Proof.
  intros P N1 N2 Q.
  assert (G : match skipn (count_sp (repeat sp n ++ q)) (repeat sp n ++ q) with c :: _ => if ws c then None else Some (count_sp (repeat sp n ++ q)) | [] => None end = None).
  { assert (E : count_sp (repeat sp n ++ q) = n).
    { clear N1 N2. induction n as [|n IH]; simpl; [|now rewrite IH]. destruct Q as [->|(c & r & -> & W & X)]; [reflexivity|].
      simpl. destruct (is sp c) eqn:E; [apply is_eq in E; congruence|reflexivity]. }
    rewrite E, skip_rep. destruct Q as [->|(c & r & -> & W & _)]; [reflexivity|now rewrite W]. }
  assert (F : find_dedent (p ++ repeat sp n ++ q) = None).
  { destruct P as [->| ->]; unfold find_dedent.
    - destruct n as [|n]; [|exact G]. simpl in *. destruct q as [|c r]; [reflexivity|].
      destruct (is nl c) eqn:E; [apply is_eq in E; subst; exfalso; eapply N1; eauto|exact G].
    - destruct n as [|n]; [|exact G]. simpl in *. destruct q as [|c r]; [reflexivity|].
      destruct (is cr c) eqn:E; [apply is_eq in E; subst; exfalso; eapply N2; eauto|exact G]. }
  unfold change_indentation. rewrite F. destruct (p ++ repeat sp n ++ q); reflexivity.
Qed.
(** otherwise, line by line: the first line stays, each other loses up to so many spaces as the first indented line has and gets the
    indentation; then blanks are stripped from both ends *)
Theorem C137_lines p n c r s ind : p = [] \/ p = [nl] \/ p = [nl; cr] -> ws c = false -> s = p ++ repeat sp (S n) ++ c :: r -> exists h t b e,
  s = text h t /\ one_line h /\ Forall one_line t /\ blank b /\
  text h (map (fun l => ind ++ dedent (S n) l) t) = b ++ e /\ trimmed e (change_indentation (Some s) ind) /\
  (e = [] \/ exists c r, e = c :: r /\ ws c = false).
Proof.
  intros P W Es. assert (F : find_dedent s = Some (S n)) by (subst s; now apply find_rep). clear P W Es r c p.
  destruct (lines_one s) as [A B]. destruct (sub_lines (S n) ind s) as [E _]. cbn zeta in E.
  destruct (lstrip_cut (sub (S n) ind Copy s)) as (b & X & Y & Z).
  exists (fst (lines s)), (snd (lines s)), b, (lstrip (sub (S n) ind Copy s)).
  split; [apply lines_text|]. split; [exact A|]. split; [exact B|]. split; [exact Y|]. split; [|split; [|exact Z]].
  - rewrite <- X, E. unfold text. f_equal. clear. generalize (snd (lines s)) as t. induction t as [|l t IH]; simpl; [reflexivity|].
    now rewrite IH.
  - unfold change_indentation. rewrite F. destruct s as [|c s]; [discriminate|]. apply rstrip_trim.
Qed.
(** the usual docstring: all lines indented by [n] spaces or more, [n] the indentation of the first; the first line comes out without
    indentation and every other with the one asked for, deeper lines still deeper by as much *)
Theorem C137_block p n c b0 bs ind : p = [] \/ p = [nl] -> 0 < n -> ws c = false -> one_line (c :: b0) -> Forall one_line bs -> blank ind ->
  trimmed (text (c :: b0) (map (fun b => ind ++ b) bs))
    (change_indentation (Some (p ++ text (repeat sp n ++ c :: b0) (map (fun b => repeat sp n ++ b) bs))) ind).
Proof.
  intros P N W O T B. destruct n as [|n]; [lia|].
  set (s := text (repeat sp (S n) ++ c :: b0) (map (fun b => repeat sp (S n) ++ b) bs)).
  assert (F : find_dedent (p ++ s) = Some (S n)).
  { assert (G : match skipn (count_sp s) s with c :: _ => if ws c then None else Some (count_sp s) | [] => None end = Some (S n)).
    { unfold s, text. rewrite <- app_assoc. simpl app at 2. change ((c :: b0) ++ flat_map (cons nl) (map (fun b => repeat sp (S n) ++ b) bs)) with (c :: (b0 ++ flat_map (cons nl) (map (fun b => repeat sp (S n) ++ b) bs))).
      rewrite count_rep by assumption. rewrite skip_rep. cbn iota beta. rewrite W. f_equal. now apply count_rep. }
    destruct P as [->| ->]; exact G. }
  assert (OR : forall l, one_line l -> one_line (repeat sp (S n) ++ l)).
  { intros l H I. apply in_app_or in I. destruct I as [I|I]; [|now apply H]. apply repeat_spec in I. discriminate. }
  assert (OT : Forall one_line (map (fun b => repeat sp (S n) ++ b) bs)) by (apply Forall_map; eapply Forall_impl; [|exact T]; auto).
  assert (DR : forall l, dedent (S n) (repeat sp (S n) ++ l) = l) by (intros l; exact (less_rep (S n) l)).
  assert (FM : flat_map (fun l => nl :: ind ++ dedent (S n) l) (map (fun b => repeat sp (S n) ++ b) bs) = flat_map (cons nl) (map (fun b => ind ++ b) bs)).
  { clear -DR. induction bs as [|b bs IH]; [reflexivity|]. cbn [map flat_map]. rewrite DR, IH. reflexivity. }
  assert (L : lstrip (sub (S n) ind Copy (p ++ s)) = text (c :: b0) (map (fun b => ind ++ b) bs)).
  { destruct (sub_lines (S n) ind (p ++ s)) as [E _]. cbn zeta in E. rewrite E. destruct P as [->| ->].
    - change ([] ++ s) with s. unfold s at 1 2. rewrite lines_of by auto. cbn [fst snd]. rewrite FM. rewrite <- app_assoc.
      apply (lstrip_blank (repeat sp (S n)) c); [apply blank_rep|exact W].
    - change ([nl] ++ s) with (text [] ((repeat sp (S n) ++ c :: b0) :: map (fun b => repeat sp (S n) ++ b) bs)).
      rewrite lines_of; [|unfold one_line; simpl; tauto|constructor; auto]. cbn [fst snd flat_map]. rewrite FM, DR.
      rewrite app_nil_l. change ((nl :: ind ++ c :: b0) ++ ?x) with (nl :: (ind ++ c :: b0) ++ x). rewrite <- app_assoc.
      apply (lstrip_blank (nl :: ind) c); [constructor; [reflexivity|exact B]|exact W]. }
  unfold change_indentation. rewrite F, L. destruct (p ++ s) eqn:Z; [destruct P as [->| ->]; discriminate|]. apply rstrip_trim.
Qed.
(** a second call changes nothing, whatever the text and the indentations *)
Theorem C137_second_call s i j : change_indentation (Some (change_indentation (Some s) i)) j = change_indentation (Some s) i.
Proof.
  unfold change_indentation at 2 3. destruct s as [|c s]; [reflexivity|].
  destruct (find_dedent (c :: s)) as [[|n]|] eqn:F; [unfold change_indentation; now rewrite F| |unfold change_indentation; now rewrite F].
  set (x := sub (S n) i Copy (c :: s)). destruct (lstrip_cut x) as (_ & _ & _ & H).
  destruct (rstrip_trim (lstrip x)) as (e & E & B & _).
  destruct (rstrip (lstrip x)) as [|a r] eqn:R; [reflexivity|].
  destruct H as [H|(a' & r' & H & W)]; rewrite H in E; [discriminate|]. injection E as -> _.
  apply (C137_flush_unchanged [] a r j); auto.
Qed.

(** ** Findings *)
Theorem C137_sets_indentation_refuted :
  ~ (forall c r n, ws c = false -> 0 < n -> exists q, change_indentation_n (Some (c :: r)) n = repeat sp n ++ q).
Proof.
  intros H. destruct (H "a"%char [] 1 eq_refl (Nat.lt_0_succ 0)) as (q & Q).
  unfold change_indentation_n in Q. rewrite (C137_flush_unchanged [] "a"%char [] _) in Q by auto. discriminate.
Qed.

(** ** Examples *)
From Coq Require Import String.
Definition ls (x : string) : list ascii := list_ascii_of_string x.
Definition ex1 := [nl] ++ text (ls "    one") [ls "      two"; ls "    three"; ls "    "].
Example C137_ex_block : change_indentation_n (Some ex1) 2 = text (ls "one") [ls "    two"; ls "  three"]. Proof. reflexivity. Qed.
Example C137_ex_flush : change_indentation_n (Some (text (ls "one") [ls "    two"])) 2 = text (ls "one") [ls "    two"]. Proof. reflexivity. Qed.
Example C137_ex_less : change_indentation (Some (text (ls "    one") [ls " two"])) (ls "##") = text (ls "one") [ls "##two"]. Proof. reflexivity. Qed.
Example C137_ex_hyp : ex1 = [nl] ++ text (repeat sp 4 ++ "o"%char :: ls "ne") (map (fun b => repeat sp 4 ++ b) [ls "  two"; ls "three"; ls ""]) /\ ws "o"%char = false.
Proof. split; reflexivity. Qed.
