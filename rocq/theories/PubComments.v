(** * PubComments: loading and saving a whole file, with its comments (C58) *)
From Coq Require Import List Bool ZArith String Ascii Arith Lia.
From Verif Require Import PyBase PubModel PubProps PubFile.
Import ListNotations.

(** ** Specification *)
(** a file is a list of lines, each with the text before its comment and, perhaps, the comment (without the percent sign) *)
Definition pct : ascii := "%"%char.
Definition line : Type := str * option str.
Definition show (l : line) : str := fst l ++ match snd l with Some c => pct :: c | None => [] end.
Definition shown (ls : list line) : str := join [nl] (map show ls).
(** every percent sign before the comment is escaped, that of the comment is not *)
Definition code_ok (s : str) : Prop := forall a b, s = a ++ pct :: b -> exists a', a = a' ++ [bs].
Definition line_ok (l : line) : Prop := code_ok (fst l) /\ ~ In nl (show l) /\ (snd l <> None -> forall a, fst l <> a ++ [bs]).
(** the text with the k-th comment replaced by the command \mk{k} *)
Definition tag (mk : str) (k : nat) : str := bs :: mk ++ lb :: decimal k ++ [rb].
Fixpoint hide (mk : str) (k : nat) (ls : list line) : list str :=
  match ls with [] => [] | (s, None) :: r => s :: hide mk k r | (s, Some _) :: r => (s ++ tag mk k) :: hide mk (S k) r end.
Definition hidden (mk : str) (ls : list line) : str := join [nl] (hide mk 0 ls).
(** the marker: letters and digits, not a word of the format itself *)
Definition marker (mk : str) : Prop := exists d, mk = L "astppubcomment" ++ d /\ Forall (fun a => is_word a = true) d.
(** \documentclass with at most one, non-blank, optional argument first *)
Definition class_ok (t : str) : Prop :=
  (forall x c, ~ In rb x -> opener c = true -> ~ sub (L "\documentclass" ++ x ++ [rb; c]) t) /\
  (forall ws, Forall (fun a => is_space a = true) ws -> ~ sub (L "\documentclass[" ++ ws ++ [rsq]) t).

(** ** text *)
Lemma occ_split (q : ascii) (p a : str) (c : ascii) (b y : str) : ~ In c p -> forall x, a ++ c :: b = x ++ (q :: p) ++ y -> (exists z, a = x ++ (q :: p) ++ z /\ y = z ++ c :: b) \/ (exists z, x = a ++ z /\ c :: b = z ++ (q :: p) ++ y).
Proof.
  intros N. induction a as [|h a IH]; intros [|g x] E; cbn [List.app] in E.
  - right. now exists [].
  - right. now exists (g :: x).
  - injection E as -> E. left. cbn [List.app]. clear IH. assert (exists z, a = p ++ z /\ y = z ++ c :: b) as (z & -> & ->); [|now exists z]. revert a E. induction p as [|r p IHp]; intros a E; [now exists a|]. destruct a as [|h a]; cbn [List.app] in E; injection E as E1 E2; [exfalso; apply N; left; congruence|]. destruct (IHp (fun H => N (or_intror H)) a E2) as (z & -> & Ey). exists z. cbn. split; congruence.
  - injection E as -> E. destruct (IH x E) as [(z & -> & Ey)|(z & -> & Ey)]; [left; now exists z|right; now exists z].
Qed.
Lemma sub_split q p a c b : ~ In c p -> sub (q :: p) (a ++ c :: b) -> sub (q :: p) a \/ sub (q :: p) (c :: b).
Proof.
  intros N (x & y & E). destruct (occ_split _ _ _ _ _ _ N _ E) as [(z & -> & _)|(z & _ & ->)]; [left; now exists x, z|right; now exists z, y].
Qed.
Definition wordy (mk : str) : Prop := mk <> [] /\ Forall (fun a => is_word a = true) mk.
Lemma marker_wordy mk : marker mk -> wordy mk.
Proof. intros (d & -> & F). split; [discriminate|]. apply Forall_app. split; [|exact F]. repeat constructor. Qed.
Lemma wordy_in mk a : wordy mk -> is_word a = false -> ~ In a mk.
Proof. intros (_ & F) H I. rewrite Forall_forall in F. specialize (F a I). congruence. Qed.

(** ** decimal numerals *)
Lemma decimal_go_len fuel n : (n < fuel)%nat -> (n < 10 ^ List.length (decimal_go fuel n))%nat.
Proof.
  revert n. induction fuel as [|f IH]; intros n H; [lia|]. cbn [decimal_go]. destruct (Nat.ltb_spec n 10); [cbn; lia|]. rewrite app_length. cbn [List.length]. rewrite Nat.add_1_r. cbn [Nat.pow]. assert (n / 10 < n)%nat by (apply Nat.div_lt; lia). specialize (IH (n / 10)%nat ltac:(lia)). pose proof (Nat.div_mod n 10 ltac:(lia)). pose proof (Nat.mod_upper_bound n 10 ltac:(lia)). lia.
Qed.
Lemma digit_is k : (k < 10)%nat -> nat_of_ascii (digit k) = (48 + k)%nat.
Proof. intros H. unfold digit. apply nat_ascii_embedding. lia. Qed.
Lemma decimal_go_digits fuel n : Forall (fun a => (48 <= nat_of_ascii a <= 57)%nat) (decimal_go fuel n).
Proof.
  revert n. induction fuel as [|f IH]; intros n; cbn [decimal_go]; [constructor|]. destruct (Nat.ltb_spec n 10); [constructor; [rewrite digit_is; lia|constructor]|]. apply Forall_app. split; [apply IH|]. pose proof (Nat.mod_upper_bound n 10 ltac:(lia)). constructor; [rewrite digit_is; lia|constructor].
Qed.
Lemma decimal_no a n : (nat_of_ascii a < 48 \/ 57 < nat_of_ascii a)%nat -> ~ In a (decimal n).
Proof. intros H I. pose proof (decimal_go_digits (S n) n) as F. rewrite Forall_forall in F. specialize (F a I). lia. Qed.
Lemma decimal_go_nonempty f n : decimal_go (S f) n <> [].
Proof. cbn [decimal_go]. destruct (Nat.ltb n 10); [discriminate|]. intros H. apply app_eq_nil in H. destruct H; discriminate. Qed.
Definition step (o : option nat) (a : ascii) : option nat := match o with Some v => let n := nat_of_ascii a in if ((48 <=? n) && (n <=? 57))%nat then Some (v * 10 + (n - 48))%nat else None | None => None end.
Lemma step_digit v k : (k < 10)%nat -> step (Some v) (digit k) = Some (v * 10 + k)%nat.
Proof. intros H. unfold step. rewrite digit_is by auto. cbn zeta. destruct (Nat.leb_spec 48 (48 + k)); [|lia]. destruct (Nat.leb_spec (48 + k) 57); [|lia]. cbn [andb]. f_equal. lia. Qed.
Lemma decimal_go_step fuel n : (n < fuel)%nat -> fold_left step (decimal_go fuel n) (Some 0%nat) = Some n.
Proof.
  revert n. induction fuel as [|f IH]; intros n H; [lia|]. cbn [decimal_go]. destruct (Nat.ltb_spec n 10).
  - change (step (Some 0%nat) (digit n) = Some n). now rewrite step_digit.
  - rewrite fold_left_app. assert (n / 10 < n)%nat by (apply Nat.div_lt; lia). rewrite IH by lia. change (step (Some (n / 10)%nat) (digit (n mod 10)) = Some n). pose proof (Nat.div_mod n 10 ltac:(lia)). pose proof (Nat.mod_upper_bound n 10 ltac:(lia)). rewrite step_digit by lia. f_equal. lia.
Qed.
Lemma parse_decimal n : parse_index (decimal n) = Some n.
Proof.
  unfold parse_index. pose proof (decimal_go_nonempty n n) as N. fold (decimal n) in N. destruct (decimal n) as [|a l] eqn:E; [contradiction|]. rewrite <- E. exact (decimal_go_step (S n) n ltac:(lia)).
Qed.
(** ** a marker that does not occur exists: the search of lines 213-217 ends *)
Lemma mem_spec p s : mem p s = true <-> sub p s.
Proof.
  unfold mem. split.
  - destruct (find p s) as [[x r]|] eqn:E; [|discriminate]. intros _. exists x, r. now apply find_spec.
  - intros (a & b & ->). destruct (find_complete p a b) as (x & r & ->). reflexivity.
Qed.
Lemma digit_word a : (48 <= nat_of_ascii a <= 57)%nat -> is_word a = true.
Proof. intros H. unfold is_word. cbn zeta. destruct (Nat.leb_spec 48 (nat_of_ascii a)); [|lia]. destruct (Nat.leb_spec (nat_of_ascii a) 57); [|lia]. reflexivity. Qed.
Theorem C58_marker : forall f, exists fuel mk, search fuel 0 (L "astppubcomment") f = Some mk /\ marker mk /\ ~ sub mk f.
Proof.
  intros f.
  assert (forall i, (10 ^ List.length f <= i)%nat -> mem (L "astppubcomment" ++ decimal i) f = false) as Big.
  { intros i Hi. destruct (mem (L "astppubcomment" ++ decimal i) f) eqn:E; [|reflexivity]. exfalso. apply mem_spec in E. destruct E as (a & b & E). apply (f_equal (@List.length ascii)) in E. rewrite !app_length in E. pose proof (decimal_go_len (S i) i ltac:(lia)) as D. fold (decimal i) in D. assert (List.length (decimal i) <= List.length f)%nat as H by lia. pose proof (Nat.pow_le_mono_r 10 _ _ ltac:(lia) H). lia. }
  assert (forall i, marker (L "astppubcomment" ++ decimal i)) as Mk. { intros i. exists (decimal i). split; [reflexivity|]. eapply Forall_impl; [|exact (decimal_go_digits (S i) i)]. intros a. apply digit_word. }
  assert (forall m i name, marker name -> (10 ^ List.length f <= i + m)%nat -> exists mk, search (S (S m)) i name f = Some mk /\ marker mk /\ ~ sub mk f) as K.
  { induction m as [|m IH]; intros i name M H; cbn [search].
    - destruct (mem name f) eqn:E; [|exists name; split; [reflexivity|]; split; [exact M|]; intros Q; apply mem_spec in Q; congruence]. pose proof (Big i ltac:(lia)) as Bi. rewrite Bi. eexists. split; [reflexivity|]. split; [apply Mk|]. intros Q. apply mem_spec in Q. congruence.
    - destruct (mem name f) eqn:E; [|exists name; split; [reflexivity|]; split; [exact M|]; intros Q; apply mem_spec in Q; congruence]. apply (IH (S i)); [apply Mk|lia]. }
  destruct (K (10 ^ List.length f)%nat 0%nat (L "astppubcomment")) as (mk & H); [exists []; split; [reflexivity|constructor]|lia|]. eauto.
Qed.
(** ** restoring the comments *)
Lemma node_ind2 (P : node -> Prop) : (forall s, P (Text s)) -> P Newline -> (forall w l, Forall P l -> P (Env w l)) -> (forall d l, Forall P l -> P (Math d l)) -> (forall w a, P (Cmd w a)) -> (forall w c, P (TCmd w c)) -> (forall p c l, P c -> Forall P l -> P (Decl p c l)) -> (forall t b, P (Comm t b)) -> forall n, P n.
Proof.
  intros H1 H2 H3 H4 H5 H6 H7 H8. fix IH 1. intros [s| |w l|d l|w a|w c|p c l|t b]; [apply H1|apply H2| | |apply H5|apply H6| |apply H8].
  - apply H3. induction l; constructor; auto.
  - apply H4. induction l; constructor; auto.
  - apply H7; [apply IH|]. induction l; constructor; auto.
Qed.
Section Restore.
Variables (mk : str) (coms : list str).
(** some of the tags have been replaced by their comments *)
Inductive restored : str -> str -> Prop :=
| Rnil : restored [] []
| Rchar c a b : restored a b -> restored (c :: a) (c :: b)
| Rtag k t a b : nth_error coms k = Some t -> restored a b -> restored (t ++ a) (tag mk k ++ b).
Lemma restored_inv g h r : restored g (h :: r) -> (exists a, g = h :: a /\ restored a r) \/ (exists k t a d, h :: r = tag mk k ++ d /\ nth_error coms k = Some t /\ g = t ++ a /\ restored a d).
Proof.
  intros R. remember (h :: r) as u eqn:Eu. destruct R as [|c a b R|k t a b E R]; [discriminate| |].
  - injection Eu as -> ->. left. eauto.
  - right. exists k, t, a, b. auto.
Qed.
Lemma restored_nil g : restored g [] -> g = [].
Proof. intros R. remember (@nil ascii) as u eqn:Eu. destruct R as [|c a b R|k t a b E R]; [reflexivity|discriminate|discriminate]. Qed.
Lemma restored_refl s : restored s s. Proof. induction s; constructor; auto. Qed.
Lemma restored_app a b c d : restored a b -> restored c d -> restored (a ++ c) (b ++ d).
Proof. induction 1 as [|x a b H IH|k t a b E H IH]; intros K; cbn [List.app]; [exact K|constructor; auto|]. rewrite <- !app_assoc. econstructor; eauto. Qed.
(** every tag is followed by a number in braces and then the end of a line *)
Definition framed (t : str) : Prop := forall x y, t = x ++ bs :: mk ++ y -> exists k z, y = lb :: decimal k ++ rb :: z /\ (z = [] \/ exists z', z = nl :: z').
(** what the parser guarantees about nodes *)
Fixpoint wf (n : node) : Prop :=
  match n with
  | Text s => ~ In nl s
  | Env _ l | Math _ l => fold_right (fun c P => wf c /\ P) True l
  | Cmd _ args => Forall (fun a => required a = true -> ~ In rb (atext a)) args
  | Decl _ _ _ | Comm _ _ => False
  | _ => True
  end.
Definition wfs (l : list node) : Prop := fold_right (fun c P => wf c /\ P) True l.
Lemma wfs_Forall l : wfs l <-> Forall wf l.
Proof. induction l as [|a l IH]; cbn [wfs fold_right]; split; intros H; auto. - destruct H as (H1 & H2). constructor; auto. now apply IH. - inversion H; subst. split; auto. now apply IH. Qed.
(** the loop over the children, with the node function as a parameter *)
Definition addin_go (rec : node -> @res node) := fix go (l : list node) (done : list (node * bool)) {struct l} : @res (list node) :=
  match l with
  | [] => Ok (rev (map fst (filter (fun p => negb (snd p)) done)))
  | c :: l =>
    let last := match done with (x, _) :: _ => Some x | [] => None end in
    let last2 := match done with _ :: (x, _) :: _ => Some x | _ => None end in
    let d1 := match last with Some x => is_comment x && is_empty_text c | None => false end in
    let d2 := negb d1 && match last2, last with Some x, Some y => is_comment x && is_text y && is_newline c | _, _ => false end in
    let done := if d2 then match done with y :: (Comm t _, f) :: r => y :: (Comm t true, f) :: r | _ => done end else done in
    match rec c with
    | Ok c' => go l ((c', d1 || d2) :: done)
    | Raise e => Raise e
    | OutOfFuel => OutOfFuel
    end
  end.
Lemma addin_env w l : addin_node mk coms (Env w l) = match addin_go (addin_node mk coms) l [] with Ok l' => Ok (Env w l') | Raise e => Raise e | OutOfFuel => OutOfFuel end. Proof. reflexivity. Qed.
Lemma addin_math w l : addin_node mk coms (Math w l) = match addin_go (addin_node mk coms) l [] with Ok l' => Ok (Math w l') | Raise e => Raise e | OutOfFuel => OutOfFuel end. Proof. reflexivity. Qed.
Definition kept (done : list (node * bool)) : str := prints (rev (map fst (filter (fun p => negb (snd p)) done))).
Lemma prints_app a b : prints (a ++ b) = prints a ++ prints b. Proof. unfold prints. now rewrite map_app, concat_app. Qed.
Lemma kept_cons c b done : kept ((c, b) :: done) = kept done ++ (if b then [] else print c).
Proof. unfold kept. cbn [filter snd]. destruct b; cbn [negb]; [now rewrite app_nil_r|]. cbn [map rev fst]. rewrite prints_app. unfold prints at 2. cbn. now rewrite app_nil_r. Qed.
(** the children treated so far, last first, and what they were *)
Definition was (c : node) (d : node * bool) : Prop := (is_comment (fst d) = true -> exists args, c = Cmd mk args /\ reqargs args <> []) /\ (is_text (fst d) = true -> fst d = c).
Definition fresh2 (done : list (node * bool)) : Prop := match done with (x, g) :: (y, f) :: _ => (forall t b, x = Comm t b -> b = false /\ g = false) /\ (forall t b, y = Comm t b -> b = false /\ f = false) | (x, g) :: _ => forall t b, x = Comm t b -> b = false /\ g = false | [] => True end.
Lemma until_unique (c : ascii) (a b x y : str) : ~ In c a -> ~ In c b -> a ++ c :: x = b ++ c :: y -> a = b /\ x = y.
Proof.
  revert b. induction a as [|h a IH]; intros [|g b] Na Nb E; cbn [List.app] in E; [split; congruence|exfalso; apply Nb; left; congruence|exfalso; apply Na; left; congruence|]. injection E as -> E2. destruct (IH b) as (-> & ->); auto; intros H; [apply Na|apply Nb]; now right.
Qed.
Lemma tag_args t0 X args Y r rs : framed t0 -> t0 = X ++ print (Cmd mk args) ++ Y -> Forall (fun a => required a = true -> ~ In rb (atext a)) args -> reqargs args = r :: rs -> exists k, args = [Arg true (decimal k)] /\ r = decimal k /\ (Y = [] \/ exists z, Y = nl :: z).
Proof.
  intros F E W Rq. destruct (F X (List.concat (map print_arg args) ++ Y)) as (k & z & Ez & Hz). { rewrite E. cbn [print]. unfold print_cmd. assoc. }
  destruct args as [|[[|] d] args]; [discriminate| |cbn [map List.concat print_arg required List.app] in Ez; discriminate]. cbn [map List.concat print_arg required atext] in Ez. cbn [List.app] in Ez. injection Ez as Ez. rewrite <- !app_assoc in Ez. cbn [List.app] in Ez. inversion W as [|? ? Wd W']; subst. destruct (until_unique rb d (decimal k) _ _ (Wd eq_refl) (decimal_no rb k ltac:(right; vm_compute; lia)) Ez) as (-> & Ey). exists k. unfold reqargs in Rq. cbn [map filter required atext] in Rq. injection Rq as <- _.
  destruct args as [|[[|] e] args]; [|exfalso; cbn [map List.concat print_arg required List.app] in Ey; destruct Hz as [->|(z' & ->)]; discriminate|exfalso; cbn [map List.concat print_arg required List.app] in Ey; destruct Hz as [->|(z' & ->)]; discriminate]. cbn [map List.concat List.app] in Ey. subst z. auto.
Qed.
Lemma addin_text c c' : wf c -> addin_node mk coms c = Ok c' -> is_text c' = true -> c' = c.
Proof.
  destruct c as [s| |w l|d l|w a|w x|p q l|t b]; intros W; try (intros [= <-] _; reflexivity); try contradiction.
  - rewrite addin_env. destruct (addin_go _ l []); try discriminate. intros [= <-]; discriminate.
  - rewrite addin_math. destruct (addin_go _ l []); try discriminate. intros [= <-]; discriminate.
  - cbn [addin_node]. destruct (str_eqb w mk); [|intros [= <-]; discriminate]. destruct (reqargs a); [discriminate|]. destruct (parse_index l); [|discriminate]. destruct (nth_error coms n); [|discriminate]. intros [= <-]. discriminate.
Qed.
Lemma addin_comment c c' : wf c -> addin_node mk coms c = Ok c' -> is_comment c' = true -> exists args t, c = Cmd mk args /\ reqargs args <> [] /\ c' = Comm t false.
Proof.
  destruct c as [s| |w l|d l|w a|w x|p q l|t b]; intros W; try (intros [= <-]; discriminate); try contradiction.
  - rewrite addin_env. destruct (addin_go _ l []); try discriminate. intros [= <-]; discriminate.
  - rewrite addin_math. destruct (addin_go _ l []); try discriminate. intros [= <-]; discriminate.
  - cbn [addin_node]. destruct (str_eqb w mk) eqn:E; [|intros [= <-]; discriminate]. apply eqs in E. subst w. destruct (reqargs a) eqn:Er; [discriminate|]. destruct (parse_index l); [|discriminate]. destruct (nth_error coms n); [|discriminate]. intros [= <-] _. exists a. eexists. split; [reflexivity|]. split; [congruence|reflexivity].
Qed.
Lemma go_restored t0 : framed t0 -> forall l X Y l1 done res,
  Forall (fun c => forall X Y c', wf c -> t0 = X ++ print c ++ Y -> addin_node mk coms c = Ok c' -> restored (print c') (print c)) l ->
  Forall wf l1 -> Forall wf l -> t0 = X ++ prints (rev l1 ++ l) ++ Y -> Forall2 was l1 done -> fresh2 done -> restored (kept done) (prints (rev l1)) -> addin_go (addin_node mk coms) l done = Ok res -> restored (prints res) (prints (rev l1 ++ l)).
Proof.
  intros Fr. induction l as [|c l IH]; intros X Y l1 done res Hl W1 W Et Fw F2 Rd; cbn [addin_go].
  - intros [= <-]. rewrite app_nil_r. exact Rd.
  - pose proof (Forall_inv Hl) as Hc. pose proof (Forall_inv_tail Hl) as Hl'. pose proof (Forall_inv W) as Wc. pose proof (Forall_inv_tail W) as Wl. cbn beta in Hc. destruct (addin_node mk coms c) as [c'|e|] eqn:Ec; try discriminate. cbn zeta.
    set (d1 := match match done with (x, _) :: _ => Some x | [] => None end with Some x => is_comment x && is_empty_text c | None => false end). set (d2 := negb d1 && _). set (done2 := if d2 then _ else done). intros Hgo.
    replace (rev l1 ++ c :: l) with (rev (c :: l1) ++ l) in * by (cbn [rev]; now rewrite <- app_assoc).
    assert (restored (print c') (print c)) as Rc. { apply (Hc (X ++ prints (rev l1)) (prints l ++ Y)); auto. rewrite Et. cbn [rev]. rewrite !prints_app. unfold prints at 2. cbn [map List.concat]. rewrite app_nil_r. now rewrite <- !app_assoc. }
    assert (was c (c', d1 || d2)) as Wn. { split; cbn [fst]; intros H; [destruct (addin_comment _ _ Wc Ec H) as (args & t & -> & Rq & _); eauto|eapply addin_text; eauto]. }
    assert (prints (rev (c :: l1)) = prints (rev l1) ++ print c) as Ep by (cbn [rev]; rewrite prints_app; unfold prints at 2; cbn; now rewrite app_nil_r).
    assert (forall t b, c' = Comm t b -> b = false /\ d1 || d2 = false) as Cc. { intros t b ->. destruct (addin_comment _ _ Wc Ec eq_refl) as (args & u & -> & _ & E). injection E as -> ->. split; [reflexivity|]. unfold d1, d2, d1. cbn [is_empty_text is_newline]. destruct done as [|[x fx] [|[y fy] done']]; rewrite ?andb_false_r; reflexivity. }
    refine (IH X Y (c :: l1) ((c', d1 || d2) :: done2) res Hl' (Forall_cons _ Wc W1) Wl Et _ _ _ Hgo).
    + constructor; [exact Wn|]. unfold done2. destruct d2; [|exact Fw]. destruct done as [|y [|[[] f] done']]; auto. revert Et. inversion Fw as [|? ? ? ? Wy Fw']; subst. inversion Fw' as [|? ? ? ? Wz Fw'']; subst. intros Et. constructor; auto. constructor; auto. destruct Wz as (Wz & _). split; cbn [fst] in *; [intros _; now apply Wz|discriminate].
    + assert (match done with (x, g) :: _ => forall t b, x = Comm t b -> b = false /\ g = false | [] => True end) as F1 by (destruct done as [|[x fx] [|[y fy] done']]; cbn [fresh2] in F2; tauto).
      assert (exists q, done2 = match done with [] => [] | x :: _ => x :: q end) as (q & Eq). { unfold done2. destruct d2; destruct done as [|x [|[[] f] r]]; eauto; exists []; reflexivity. }
      rewrite Eq. destruct done as [|[x fx] done']; cbn [fresh2]; [intros t b H; now apply (Cc t b)|]. split; [intros t b H; now apply (Cc t b)|exact F1].
    + rewrite kept_cons, Ep. destruct d1 eqn:D1.
      { assert (d2 = false) as D2 by (unfold d2; reflexivity). unfold done2. rewrite D2. cbn [orb]. rewrite app_nil_r. assert (c = Text []) as ->; [|now rewrite app_nil_r]. unfold d1 in D1. destruct done as [|[x fx] done']; [discriminate|]. apply andb_true_iff in D1. destruct D1 as (_ & D1). destruct c as [[|a s]| | | | | | |]; try discriminate. reflexivity. }
      destruct d2 eqn:D2; cbn [orb]; [|unfold done2; now apply restored_app].
      unfold d2 in D2. cbn [negb andb] in D2. unfold done2. clear IH Hgo done2. destruct done as [|[y fy] [|[x fx] done']]; try discriminate. apply andb_true_iff in D2. destruct D2 as (D2 & Dc). apply andb_true_iff in D2. destruct D2 as (Dx & Dy). destruct c as [| | | | | | |]; try discriminate. injection Ec as <-. destruct x as [| | | | | | |t b]; try discriminate. cbn [fresh2] in F2. destruct F2 as (_ & F2). destruct (F2 t b eq_refl) as (-> & ->).
      revert Et. inversion Fw as [|y0 ? l1' ? Wy Fw']; subst. inversion Fw' as [|x0 ? l1'' ? Wx Fw'']; subst. intros Et. destruct Wx as (Wx & _). destruct (Wx eq_refl) as (args & -> & Rq). destruct Wy as (_ & Wy). specialize (Wy Dy). cbn [fst] in Wy. subst y0. rewrite app_nil_r. rewrite !kept_cons in Rd |- *. cbn [print] in *.
      assert (print y = [] \/ print y = [nl]) as Py.
      { destruct y as [s| | | | | | |]; try discriminate; [left|now right]. cbn [print]. pose proof (Forall_inv W1) as Ws. pose proof (Forall_inv (Forall_inv_tail W1)) as Wa. cbn [wf] in Ws, Wa. destruct (reqargs args) as [|r rs] eqn:Er; [congruence|].
        destruct (fun E => tag_args t0 (X ++ prints (rev l1'')) args (s ++ nl :: prints l ++ Y) r rs Fr E Wa Er) as (k & _ & _ & [H|(z & H)]).
        - rewrite Et. cbn [rev]. rewrite !prints_app. unfold prints at 2 3 4. cbn [map List.concat]. rewrite !app_nil_r. cbn [print]. rewrite <- !app_assoc. cbn [List.app]. reflexivity.
        - destruct s; discriminate.
        - destruct s as [|a s]; [reflexivity|]. exfalso. injection H as -> _. apply Ws. now left. }
      replace ((kept done' ++ "%"%char :: t ++ [nl]) ++ (if fy then [] else print y)) with (((kept done' ++ "%"%char :: t ++ []) ++ (if fy then [] else print y)) ++ [nl]); [apply restored_app; [exact Rd|apply restored_refl]|].
      destruct fy; [rewrite !app_nil_r; assoc|]. destruct Py as [->| ->]; rewrite ?app_nil_r; assoc.
Qed.
Hypothesis coms_pct : Forall (fun t => exists c, t = pct :: c) coms.
Lemma addin_restored t0 : framed t0 -> forall n X Y n', wf n -> t0 = X ++ print n ++ Y -> addin_node mk coms n = Ok n' -> restored (print n') (print n).
Proof.
  intros Fr. induction n as [s| |w l IH|d l IH|w a|w x|p q l IHq IH|t b] using node_ind2; intros X Y n' W Et; try (intros [= <-]; apply restored_refl); try contradiction.
  - rewrite addin_env. destruct (addin_go _ l []) as [l'|e|] eqn:E; try discriminate. intros [= <-]. cbn [print]. fold (prints l) (prints l'). assert (restored (prints l') (prints l)) as R.
    { apply (go_restored t0 Fr l (X ++ begin_ ++ w ++ [rb]) (end_ ++ w ++ [rb] ++ Y) [] [] l'); auto; [apply wfs_Forall; exact W| |exact I|constructor]. rewrite Et. cbn [print rev]. fold (prints l). assoc. }
    repeat (apply restored_app; [first [exact R|apply restored_refl]|]). apply restored_refl.
  - rewrite addin_math. destruct (addin_go _ l []) as [l'|e|] eqn:E; try discriminate. intros [= <-]. cbn [print]. fold (prints l) (prints l'). assert (restored (prints l') (prints l)) as R.
    { apply (go_restored t0 Fr l (X ++ msymb d) (msymb d ++ Y) [] [] l'); auto; [apply wfs_Forall; exact W| |exact I|constructor]. rewrite Et. cbn [print rev]. fold (prints l). assoc. }
    repeat (apply restored_app; [first [exact R|apply restored_refl]|]). apply restored_refl.
  - cbn [addin_node]. destruct (str_eqb w mk) eqn:E; [|intros [= <-]; apply restored_refl]. apply eqs in E. subst w. destruct (reqargs a) as [|r rs] eqn:Er; [discriminate|]. destruct (tag_args t0 X a Y r rs Fr Et W Er) as (k & -> & -> & _). rewrite parse_decimal. destruct (nth_error coms k) as [t|] eqn:Ek; [|discriminate]. intros [= <-]. pose proof (nth_error_In _ _ Ek) as It. rewrite Forall_forall in coms_pct. destruct (coms_pct t It) as (c & ->). unfold new_comment. change (pct =a "%"%char) with true. cbn [print]. unfold print_cmd. cbn [map List.concat print_arg required atext]. rewrite !app_nil_r.
    change (restored (pct :: c) (tag mk k)). rewrite <- (app_nil_r (pct :: c)), <- (app_nil_r (tag mk k)). apply Rtag; auto. constructor.
Qed.
Lemma addin_list t0 X Y l l' : framed t0 -> Forall wf l -> t0 = X ++ prints l ++ Y -> addin mk coms l = Ok l' -> restored (prints l') (prints l).
Proof.
  intros Fr W Et. unfold addin. rewrite addin_math. destruct (addin_go _ l []) as [q|e|] eqn:E; try discriminate. intros [= <-]. apply (go_restored t0 Fr l X Y [] [] q); auto; [|exact I|constructor]. apply Forall_forall. intros c _ X' Y' c'. now apply addin_restored.
Qed.
End Restore.

(** ** what the parser guarantees *)
(** a command's arguments come from the text *)
Definition cmd_src (t : str) (n : node) : Prop := match n with Cmd w args => exists ar, sub (bs :: w ++ ar) t /\ args_form ar /\ make_args ar = Ok args | _ => True end.
Definition item_wf (t : str) (i : item) : Prop := match i with IStr _ => True | ICmd w o a => sub (bs :: w ++ o) t /\ args_form o /\ make_args o = Ok a | INode n => wf n /\ cmd_src t n end.
Lemma args_wf ar args : args_form ar -> tidy ar -> make_args ar = Ok args -> Forall (fun a => required a = true -> ~ In rb (atext a)) args.
Proof.
  intros A T H. destruct (make_args_tidy _ A T) as (q & E & _ & F). congruence.
Qed.
Lemma cmd_src_sub t x n : sub x t -> cmd_src x n -> cmd_src t n.
Proof. intros S. destruct n; auto. cbn. intros (ar & S2 & H). exists ar. split; [eapply sub_trans; eauto|exact H]. Qed.
Lemma split_nl_no s : Forall (fun x => ~ In nl x) (split_on nl s).
Proof.
  induction s as [|a s IH]; cbn [split_on]; [repeat constructor; intros []|]. destruct (a =a nl) eqn:E; [constructor; [intros []|exact IH]|]. apply neqa in E. destruct (split_on nl s) as [|x l]; [constructor; [intros [H|[]]; congruence|constructor]|]. inversion IH; subst. constructor; auto. intros [H|H]; [congruence|contradiction].
Qed.
Lemma parse_wf : forall n t ns, clean t -> tidy t -> parse n t = Ok ns -> Forall (fun m => wf m /\ cmd_src t m) ns.
Proof.
  induction n as [|n IH]; intros t ns C T; cbn [parse]; [discriminate|]. destruct (env_split_spec (List.length t) t (C _ BadDisplay)) as (E & F). set (cs := env_split (List.length t) t) in *. clearbody cs.
  destruct (mapr (build_chunk (parse n)) cs) as [iss|e|] eqn:Eb; cbn [bindr]; try discriminate. destruct (chunks_src _ _ _ _ E F C Eb) as (G & Aj).
  assert (Forall (item_wf t) (List.concat iss)) as Fq.
  { apply Forall_concat. apply mapr_ok in Eb. assert (forall c, In c cs -> sub (chunk_text c) t) as Sc by (intros c Hc; rewrite E; now apply in_concat_sub). clear E G Aj. induction Eb as [|c is cs iss Hc H IHb]; [constructor|]. inversion F as [|? ? Fc Fcs]; subst. constructor; [|apply IHb; auto; intros; apply Sc; now right]. specialize (Sc c (or_introl eq_refl)). destruct c as [s|m|m]; cbn [build_chunk chunk_text chunk_ok] in *.
    - apply mapr_ok in Hc. destruct (cmd_split_spec (List.length s) [] s) as (Es & Fs). assert (forall p, In p (cmd_split (List.length s) [] s) -> sub (piece_text p) t) as Sp by (intros p Hp; eapply sub_trans; [|exact Sc]; change s with ([] ++ s); rewrite <- Es; now apply in_concat_sub). clear -Hc Sp Fs. induction Hc as [|p i ps is Hp H IHp]; [constructor|]. inversion Fs as [|? ? Fp Fs']; subst. constructor; [|apply IHp; auto; intros; apply Sp; now right]. specialize (Sp p (or_introl eq_refl)). destruct p as [x|w ar]; cbn [build_piece piece_text piece_ok] in *; [injection Hp as <-; exact I|]. destruct (make_args ar) as [args|e|] eqn:Em; cbn [bindr] in Hp; try discriminate. injection Hp as <-. cbn [item_wf]. tauto.
    - destruct Fc as (name & c & -> & Nb). assert (~ sub (L "\end") name) as Ne. { intros (x & y & ->). apply (clean_sub _ _ C Sc (begin_ ++ x ++ L "\end")); [constructor; intros Hx; apply Nb; apply in_or_app; now left|]. exists [], (y ++ [rb] ++ c ++ end_ ++ (x ++ L "\end" ++ y) ++ [rb]). cbn [List.app]. now rewrite <- !app_assoc. }
      rewrite env_parts_form in Hc by auto. assert (sub c t) as S1 by (eapply sub_trans; [|exact Sc]; exists (begin_ ++ name ++ [rb]), (end_ ++ name ++ [rb]); now rewrite <- !app_assoc). destruct (parse n c) as [l|e|] eqn:R; cbn [bindr] in Hc; try discriminate. destruct (str_eqb name (L "document") && negb (document_ok l)); [discriminate|]. injection Hc as <-. constructor; [|constructor]. split; [|exact I]. cbn [wf]. apply wfs_Forall. eapply Forall_impl; [|apply (IH c l); [eapply clean_sub; eauto|eapply tidy_sub; eauto|exact R]]. now intros a (H1 & _).
    - destruct Fc as (x & X0 & Nx & ->). destruct (math_parts (dollar :: x ++ [dollar])) as [d y] eqn:Em.
      assert (math_parts (dollar :: x ++ [dollar]) = (false, x)) as Em2.
      { unfold math_parts. destruct x as [|a x]; [contradiction|]. assert (dollar =a a = false) as Ea by (apply neqa; intros <-; apply Nx; now left). cbn [drop List.app]. rewrite Ascii.eqb_refl, Ea. f_equal. cbn [skipn]. rewrite app_comm_cons. replace (List.length (dollar :: (a :: x) ++ [dollar]) - 2)%nat with (List.length (a :: x)) by (cbn [List.length]; rewrite app_length; cbn; lia). rewrite firstn_app, firstn_all, Nat.sub_diag. cbn [firstn]. now rewrite app_nil_r. }
      rewrite Em2 in Em. injection Em as <- <-. assert (sub x t) as S1 by (eapply sub_trans; [|exact Sc]; exists [dollar], [dollar]; reflexivity). destruct (parse n x) as [l|e|] eqn:R; cbn [bindr] in Hc; try discriminate. injection Hc as <-. constructor; [|constructor]. split; [|exact I]. cbn [wf]. apply wfs_Forall. eapply Forall_impl; [|apply (IH x l); [eapply clean_sub; eauto|eapply tidy_sub; eauto|exact R]]. now intros a (H1 & _). }
  destruct (fix_lr (parse n) (List.concat iss)) as [l|e|] eqn:Fl; cbn [bindr]; try discriminate. pose proof (lr_adj _ _ _ _ C G Aj Fl) as Al. rewrite (decls_id _ _ Al). cbn [bindr]. intros [= <-].
  assert (Forall (item_wf t) l) as Fql.
  { clear -Fq Fl IH C T. revert l Fl. induction Fq as [|i is Hi Fq IHq]; intros l Fl; cbn [fix_lr] in Fl; [injection Fl as <-; constructor|]. destruct (fix_lr (parse n) is) as [tail|e|] eqn:Ft; cbn [bindr] in Fl; try discriminate. specialize (IHq tail eq_refl). destruct i as [s|w o a|m]; try (injection Fl as <-; constructor; auto).
    destruct (str_eqb w left_ && negb match a with [] => true | _ => false end).
    - destruct o as [|c r]; [discriminate|]. destruct (parse n r) as [ns|e|] eqn:R; cbn [bindr] in Fl; try discriminate. injection Fl as <-. destruct Hi as (So & _). assert (sub r t) as Sr. { eapply sub_trans; [|exact So]. exists (bs :: w ++ [c]), []. rewrite app_nil_r. assoc. } constructor; [split; exact I|]. apply Forall_app. split; [|exact IHq]. assert (Forall (fun m => wf m /\ cmd_src r m) ns) as Fn by (apply (IH r ns); auto; [eapply clean_sub; eauto|eapply tidy_sub; eauto]). clear -Fn Sr. induction Fn as [|m ns (H1 & H2) Fn IHn]; cbn [map]; constructor; auto. split; [exact H1|eapply cmd_src_sub; eauto].
    - destruct (str_eqb w left_ || str_eqb w right_); [|injection Fl as <-; constructor; auto]. destruct tail as [|[s|w2 o2 a2|m2] tl]; try (injection Fl as <-; constructor; auto; fail). destruct s as [|c s']; [discriminate|]. destruct (is_space c); [injection Fl as <-; constructor; auto|]. injection Fl as <-. constructor; [split; exact I|]. inversion IHq; subst. destruct s'; [auto|constructor; [exact I|auto]]. }
  unfold to_nodes. apply Forall_flat_map. apply Forall_forall. intros j Hj. apply in_map_iff in Hj. destruct Hj as (i & <- & Hi). rewrite Forall_forall in Fql. specialize (Fql i Hi). destruct i as [s|w o a|m]; cbn [to_it item_wf] in *.
  - unfold text_nodes. pose proof (split_nl_no s) as Ns. destruct (split_on nl s) as [|x q]; [constructor|]. inversion Ns as [|? ? Nx Nq]; subst. constructor; [split; [exact Nx|exact I]|]. apply Forall_flat_map. eapply Forall_impl; [|exact Nq]. intros y Hy. repeat constructor. exact Hy.
  - constructor; [|constructor]. destruct Fql as (H1 & H2 & H3). split; [|exists o; auto]. cbn [wf]. eapply args_wf; eauto. eapply tidy_sub; [exact T|]. eapply sub_trans; [|exact H1]. exists (bs :: w), []. rewrite app_nil_r. reflexivity.
  - constructor; [exact Fql|constructor].
Qed.

(** ** \documentclass is left alone *)
Lemma strip_nil s : strip s = [] -> Forall (fun a => is_space a = true) s.
Proof.
  unfold strip, rstrip. destruct (span is_space s) as [u v] eqn:E. apply span_spec in E. destruct E as (-> & F & H). cbn [snd]. destruct (span is_space (rev v)) as [u2 v2] eqn:E2. apply span_spec in E2. destruct E2 as (E2 & F2 & H2). cbn [snd]. intros Z. apply (f_equal (@rev ascii)) in Z. rewrite rev_involutive in Z. cbn in Z. subst v2. rewrite app_nil_r in E2. destruct v as [|a v]; [now rewrite app_nil_r|]. exfalso. assert (In a u2) as Ia by (rewrite <- E2; apply in_rev; rewrite rev_involutive; now left). rewrite Forall_forall in F2. specialize (F2 a Ia). congruence.
Qed.
Lemma preamble_node_id t n n' : class_ok t -> tidy t -> wf n -> cmd_src t n -> preamble_node n = Ok n' -> n' = n.
Proof.
  intros (K1 & K2) T W Sr. destruct n as [s| |w l|d l|w a|w x|p q l|t' b]; try (intros [= <-]; reflexivity). cbn [preamble_node]. destruct (str_eqb w (L "documentclass")) eqn:E; [|destruct (str_eqb w (L "usepackage")); [destruct (reqargs a); [discriminate|]|]; intros [= <-]; reflexivity]. apply eqs in E. subst w. destruct Sr as (ar & S & A & M). assert (tidy ar) as Ta by (eapply tidy_sub; [exact T|]; eapply sub_trans; [|exact S]; exists (bs :: L "documentclass"), []; now rewrite app_nil_r). pose proof (make_args_exact _ _ A Ta M) as Ea. cbn [wf] in W.
  destruct (reqargs a) as [|r [|r2 rs]] eqn:Er; try discriminate. intros H. assert (List.length (optargs a) <= 1)%nat as Lo.
  { unfold set_docclassopts in H. destruct (Nat.ltb 1 (List.length (optargs (set_args true [r] a)))) eqn:Q; [discriminate|]. apply Nat.ltb_ge in Q. replace (set_args true [r] a) with a in Q; [exact Q|]. unfold set_args. assert (filter (fun a => Bool.eqb (required a) true) a = filter required a) as -> by (apply filter_ext; intros [[|] ?]; reflexivity). assert (List.length (filter required a) = 1)%nat as -> by (apply (f_equal (@List.length str)) in Er; unfold reqargs in Er; now rewrite map_length in Er). cbn [List.length Nat.eqb].
    clear -Er. revert Er. induction a as [|[[|] x] a IH]; cbn [assign required Bool.eqb]; [reflexivity| |].
    - intros Er. cbn in Er. injection Er as -> Er. f_equal. clear -Er. induction a as [|[[|] y] a IH]; cbn [assign required Bool.eqb]; [reflexivity|discriminate|]. f_equal. apply IH. exact Er.
    - intros Er. f_equal. apply IH. exact Er. }
  assert (List.length a <= 2)%nat as La. { assert (List.length a = List.length (reqargs a) + List.length (optargs a))%nat as ->; [|rewrite Er; cbn; lia]. unfold reqargs, optargs. rewrite !map_length. clear. induction a as [|[[|] x] a IH]; cbn; lia. }
  revert H. destruct a as [|[[|] x] [|[[|] y] [|u a]]]; try (cbn in La; lia); try discriminate Er; cbn in Er; injection Er as <-; cbn.
  - intros [= <-]. reflexivity.
  - exfalso. pose proof (Forall_inv W) as Wx. specialize (Wx eq_refl). cbn [atext] in Wx. apply (K1 (lb :: x) lsq); [intros [H|H]; [discriminate|contradiction]|reflexivity|]. eapply sub_trans; [|exact S]. rewrite <- Ea. exists [], (y ++ [rsq]). cbn [map List.concat print_arg required atext List.app]. rewrite !app_nil_r. change (L "\documentclass") with (bs :: L "documentclass"). assoc.
  - destruct (strip x) as [|h r] eqn:Es; cbn.
    + exfalso. apply strip_nil in Es. apply (K2 x Es). eapply sub_trans; [|exact S]. rewrite <- Ea. exists [], (lb :: y ++ [rb]). cbn [map List.concat print_arg required atext List.app]. assoc.
    + intros [= <-]. reflexivity.
Qed.
(** ** the lines and their tags *)
Lemma skip_to (c : ascii) (a b z w : str) : ~ In c a -> a ++ b = z ++ c :: w -> exists z2, z = a ++ z2 /\ b = z2 ++ c :: w.
Proof.
  revert z. induction a as [|h a IH]; intros z N E; [now exists z|]. destruct z as [|g z]; cbn [List.app] in E; [exfalso; apply N; left; congruence|]. injection E as -> E. destruct (IH z (fun H => N (or_intror H)) E) as (z2 & -> & ->). now exists z2.
Qed.
Lemma join_cons x l : join [nl] (x :: l) = x ++ match l with [] => [] | _ => nl :: join [nl] l end.
Proof. destruct l; cbn [join]; [now rewrite app_nil_r|reflexivity]. Qed.
Lemma shown_cons l ls : shown (l :: ls) = show l ++ match ls with [] => [] | _ => nl :: shown ls end.
Proof. unfold shown. cbn [map]. rewrite join_cons. now destruct ls. Qed.
Section Hide.
Variable mk : str.
Hypothesis Mk : wordy mk.
Let Nbs : ~ In bs mk := wordy_in mk bs Mk eq_refl.
Let Nnl : ~ In nl mk := wordy_in mk nl Mk eq_refl.
Let Nlb : ~ In lb mk := wordy_in mk lb Mk eq_refl.
Definition hid (k : nat) (ls : list line) : str := join [nl] (hide mk k ls).
Lemma hide_nil k ls : hide mk k ls = [] -> ls = [].
Proof. destruct ls as [|[s [c|]] ls]; [reflexivity|discriminate|discriminate]. Qed.
Lemma hid_none k s ls : hid k ((s, None) :: ls) = s ++ match ls with [] => [] | _ => nl :: hid k ls end.
Proof. unfold hid. cbn [hide]. rewrite join_cons. destruct ls as [|l ls]; [reflexivity|]. destruct (hide mk k (l :: ls)) eqn:E; [|reflexivity]. apply hide_nil in E. discriminate. Qed.
Lemma hid_some k s c ls : hid k ((s, Some c) :: ls) = s ++ tag mk k ++ match ls with [] => [] | _ => nl :: hid (S k) ls end.
Proof. unfold hid. cbn [hide]. rewrite join_cons. rewrite <- app_assoc. destruct ls as [|l ls]; [reflexivity|]. destruct (hide mk (S k) (l :: ls)) eqn:E; [|reflexivity]. apply hide_nil in E. discriminate. Qed.
Lemma fresh_lines l ls : ~ sub mk (shown (l :: ls)) -> ~ sub mk (fst l) /\ (ls <> [] -> ~ sub mk (shown ls)).
Proof.
  intros N. rewrite shown_cons in N. split.
  - intros H. apply N. eapply sub_trans; [exact H|]. unfold show. exists [], ((match snd l with Some c => pct :: c | None => [] end) ++ match ls with [] => [] | _ => nl :: shown ls end). assoc.
  - intros Hl H. apply N. eapply sub_trans; [exact H|]. destruct ls as [|m ls]; [contradiction|]. exists (show l ++ [nl]), []. rewrite app_nil_r. assoc.
Qed.
Lemma not_here s b x y : ~ sub mk s -> (b = [] \/ (exists b', b = nl :: b')) -> s ++ b = x ++ bs :: mk ++ y -> exists x' b', b = nl :: b' /\ b' = x' ++ bs :: mk ++ y.
Proof.
  intros N Hb E. destruct Hb as [->|(b' & ->)].
  - exfalso. rewrite app_nil_r in E. apply N. rewrite E. exists (x ++ [bs]), y. assoc.
  - destruct (occ_split bs mk s nl b' y Nnl x E) as [(z & -> & _)|(z & _ & E2)]; [exfalso; apply N; exists (x ++ [bs]), z; assoc|]. destruct z as [|g z]; [discriminate|]. injection E2 as <- E2. now exists z, b'.
Qed.
Lemma hid_framed ls : forall k, ls <> [] -> ~ sub mk (shown ls) -> framed mk (hid k ls).
Proof.
  induction ls as [|[s [c|]] ls IH]; intros k Ne N x y E; [contradiction| |].
  - destruct (fresh_lines _ _ N) as (N1 & N2). cbn [fst] in N1. rewrite hid_some in E. set (rest := match ls with [] => [] | _ => nl :: hid (S k) ls end) in *. unfold tag in E. cbn [List.app] in E.
    destruct (occ_split bs mk s bs _ y Nbs x E) as [(z & -> & _)|(z & -> & E2)]; [exfalso; apply N1; exists (x ++ [bs]), z; assoc|]. destruct z as [|g z]; cbn [List.app] in E2.
    + injection E2 as E3. rewrite <- app_assoc in E3. apply app_inv_head in E3. cbn [List.app] in E3. rewrite <- app_assoc in E3. cbn [List.app] in E3. exists k, rest. split; [now rewrite <- E3|]. unfold rest. destruct ls; eauto.
    + injection E2 as <- E3. assert (~ In bs (mk ++ lb :: decimal k ++ [rb])) as Nt. { intros H. apply in_app_or in H. destruct H as [H|[H|H]]; [contradiction|discriminate|]. apply in_app_or in H. destruct H as [H|[H|[]]]; [|discriminate]. revert H. apply decimal_no. right. vm_compute. lia. }
      destruct (skip_to bs _ _ _ _ Nt E3) as (z2 & _ & E4). unfold rest in E4. destruct ls as [|l ls]; [destruct z2; discriminate|]. destruct z2 as [|g z2]; [discriminate|]. injection E4 as <- E4. apply (IH (S k) ltac:(discriminate) (N2 ltac:(discriminate)) z2 y E4).
  - destruct (fresh_lines _ _ N) as (N1 & N2). cbn [fst] in N1. rewrite hid_none in E. destruct (fun H => not_here s _ x y N1 H E) as (x' & b' & Eb & E2); [destruct ls; eauto|]. destruct ls as [|l ls]; [discriminate|]. injection Eb as <-. apply (IH k ltac:(discriminate) (N2 ltac:(discriminate)) x' y E2).
Qed.
(** when no marker is left, all comments are back *)
Lemma restored_word coms w b g : ~ In bs w -> restored mk coms g (w ++ b) -> exists g', g = w ++ g' /\ restored mk coms g' b.
Proof.
  revert g. induction w as [|h w IH]; intros g N R; [now exists g|]. cbn [List.app] in R. destruct (restored_inv _ _ _ _ _ R) as [(a & -> & R')|(k & t & a & d & E2 & Hk & -> & R')].
  - destruct (IH a (fun H => N (or_intror H)) R') as (g' & -> & R2). now exists g'.
  - exfalso. apply N. left. unfold tag in E2. cbn [List.app] in E2. congruence.
Qed.
Lemma restored_code coms s b g : ~ sub mk s -> (b = [] \/ exists c b', b = c :: b' /\ ~ In c mk) -> restored mk coms g (s ++ b) -> exists g', g = s ++ g' /\ restored mk coms g' b.
Proof.
  intros N Hb. revert g. induction s as [|h s IH]; intros g R; [now exists g|]. assert (~ sub mk s) as Ns by (intros H; apply N; eapply sub_trans; [exact H|]; exists [h], []; now rewrite app_nil_r). cbn [List.app] in R. destruct (restored_inv _ _ _ _ _ R) as [(a & -> & R')|(k & t & a & d & E2 & Hk & -> & R')].
  - destruct (IH Ns a R') as (g' & -> & R2). now exists g'.
  - exfalso. unfold tag in E2. cbn [List.app] in E2. injection E2 as -> E2. rewrite <- app_assoc in E2. pose proof (proj1 Mk) as Mn. destruct Hb as [->|(c & b' & -> & Nc)].
    + rewrite app_nil_r in E2. apply Ns. rewrite E2. exists [], ((lb :: decimal k ++ [rb]) ++ d). reflexivity.
    + clear R IH Nbs Nnl Nlb. revert Mn Ns Nc E2. generalize mk as mk0. clear. intros [|m mk'] Mn Ns Nc E2; [contradiction|]. destruct (occ_split m mk' s c b' _ (fun H => Nc (or_intror H)) [] E2) as [(z & -> & _)|(z & Ez & E3)]; [apply Ns; exists [], z; reflexivity|]. symmetry in Ez. apply app_eq_nil in Ez. destruct Ez as (_ & ->). apply Nc. left. cbn [List.app] in E3. congruence.
Qed.
Lemma tag_inj k1 k2 a b : tag mk k1 ++ a = tag mk k2 ++ b -> k1 = k2 /\ a = b.
Proof.
  unfold tag. cbn [List.app]. intros E. injection E as E. rewrite <- !app_assoc in E. apply app_inv_head in E. cbn [List.app] in E. injection E as E. rewrite <- !app_assoc in E. cbn [List.app] in E. assert (forall n, ~ In rb (decimal n)) as N by (intros n; apply decimal_no; right; vm_compute; lia). destruct (until_unique rb _ _ _ _ (N k1) (N k2) E) as (D & ->). split; [|reflexivity]. apply (f_equal parse_index) in D. rewrite !parse_decimal in D. congruence.
Qed.
Fixpoint comments (ls : list line) : list str := match ls with [] => [] | (_, Some c) :: r => (pct :: c) :: comments r | (_, None) :: r => comments r end.
Lemma restored_shown ls : forall k pre g, ls <> [] -> List.length pre = k -> ~ sub mk (shown ls) -> restored mk (pre ++ comments ls) g (hid k ls) -> ~ sub mk g -> g = shown ls.
Proof.
  induction ls as [|[s [c|]] ls IH]; intros k pre g Ne Lp N R Ng; [contradiction| |]; subst k.
  - destruct (fresh_lines _ _ N) as (N1 & N2). cbn [fst] in N1. rewrite hid_some in R. cbn [comments] in R. set (rest := match ls with [] => [] | _ => nl :: hid (S (List.length pre)) ls end) in *. destruct (fun H => restored_code _ s (tag mk (List.length pre) ++ rest) g N1 H R) as (g1 & -> & R1); [right; exists bs; eexists; split; [reflexivity|exact Nbs]|].
    assert (~ sub mk g1) as Ng1 by (intros H; apply Ng; eapply sub_trans; [exact H|]; apply sub_app_r).
    assert (exists a, g1 = (pct :: c) ++ a /\ restored mk (pre ++ (pct :: c) :: comments ls) a rest) as (a & -> & Ra).
    { destruct (restored_inv mk _ _ bs ((mk ++ lb :: decimal (List.length pre) ++ [rb]) ++ rest) R1) as [(a & Eg & R')|(k2 & t & a & d & E2 & Hk & Eg & R')]; rewrite Eg in *.
      - exfalso. rewrite <- app_assoc in R'. destruct (restored_word _ mk _ a Nbs R') as (g' & -> & _). apply Ng1. exists [bs], g'. reflexivity.
      - change (bs :: (mk ++ lb :: decimal (List.length pre) ++ [rb]) ++ rest) with (tag mk (List.length pre) ++ rest) in E2. apply tag_inj in E2. destruct E2 as (<- & <-). exists a. split; [|exact R']. f_equal. rewrite nth_error_app2 in Hk by lia. replace (List.length pre - List.length pre)%nat with O in Hk by lia. cbn in Hk. congruence. }
    assert (~ sub mk a) as Na by (intros H; apply Ng1; eapply sub_trans; [exact H|]; apply sub_app_r).
    rewrite shown_cons. unfold show. cbn [fst snd]. rewrite <- !app_assoc. f_equal. f_equal. unfold rest in Ra. destruct ls as [|l ls]; [now apply restored_nil in Ra|]. destruct (restored_inv _ _ _ _ _ Ra) as [(a' & -> & R')|(k2 & t & a' & d & E2 & _)]; [|discriminate]. f_equal. apply (IH (S (List.length pre)) (pre ++ [pct :: c])); [discriminate|rewrite app_length; cbn; lia|apply N2; discriminate|rewrite <- app_assoc; exact R'|]. intros H. apply Na. eapply sub_trans; [exact H|]. exists [nl], []. now rewrite app_nil_r.
  - destruct (fresh_lines _ _ N) as (N1 & N2). cbn [fst] in N1. rewrite hid_none in R. cbn [comments] in R. destruct (fun H => restored_code _ s _ g N1 H R) as (a & -> & Ra); [destruct ls; [now left|right; exists nl; eexists; split; [reflexivity|exact Nnl]]|].
    assert (~ sub mk a) as Na by (intros H; apply Ng; eapply sub_trans; [exact H|]; apply sub_app_r).
    rewrite shown_cons. unfold show. cbn [fst snd]. rewrite app_nil_r. f_equal. destruct ls as [|l ls]; [now apply restored_nil in Ra|]. destruct (restored_inv _ _ _ _ _ Ra) as [(a' & -> & R')|(k2 & t & a' & d & E2 & _)]; [|discriminate]. f_equal. apply (IH (List.length pre) pre); [discriminate|reflexivity|apply N2; discriminate|exact R'|]. intros H. apply Na. eapply sub_trans; [exact H|]. exists [nl], []. now rewrite app_nil_r.
Qed.
(** a text without markers is left as it is *)
Lemma restored_none coms g t : ~ sub mk t -> restored mk coms g t -> g = t.
Proof. intros N R. rewrite <- (app_nil_r t) in R. destruct (restored_code coms t [] g N (or_introl eq_refl) R) as (g' & -> & R2). apply restored_nil in R2. subst g'. now rewrite app_nil_r. Qed.
End Hide.

(** ** extraction *)
Definition pesc (prev : option ascii) : bool := match prev with Some b => b =a bs | None => false end.
Lemma comment_at_step prev acc a r : comment_at prev acc (a :: r) = if (a =a pct) && negb (pesc prev) then Some (acc, a :: r) else comment_at (Some a) (acc ++ [a]) r. Proof. reflexivity. Qed.
Lemma comment_none s : forall pre, code_ok (pre ++ s) -> comment_at (match rev pre with a :: _ => Some a | [] => None end) pre s = None.
Proof.
  induction s as [|a s IH]; intros pre C; [reflexivity|]. rewrite comment_at_step. destruct (a =a pct) eqn:E; cbn [andb].
  - apply eqa in E. subst a. destruct (C pre s eq_refl) as (p & ->). rewrite rev_app_distr. cbn [rev List.app pesc negb]. change (bs =a bs) with true. cbn [negb]. specialize (IH ((p ++ [bs]) ++ [pct])). rewrite rev_app_distr in IH. cbn [rev List.app] in IH. apply IH. now rewrite <- app_assoc.
  - specialize (IH (pre ++ [a])). rewrite rev_app_distr in IH. cbn [rev List.app] in IH. apply IH. now rewrite <- app_assoc.
Qed.
Lemma comment_some c s : forall pre, code_ok (pre ++ s) -> (forall a, pre ++ s <> a ++ [bs]) -> comment_at (match rev pre with a :: _ => Some a | [] => None end) pre (s ++ pct :: c) = Some (pre ++ s, pct :: c).
Proof.
  induction s as [|a s IH]; intros pre C N; cbn [List.app]; rewrite comment_at_step.
  - change (pct =a pct) with true. rewrite app_nil_r in *. cbn [andb]. assert (pesc match rev pre with a :: _ => Some a | [] => None end = false) as ->; [|reflexivity]. destruct (rev pre) as [|b r] eqn:E; [reflexivity|]. cbn [pesc]. apply neqa. intros ->. apply (N (rev r)). rewrite <- (rev_involutive pre), E. reflexivity.
  - destruct (a =a pct) eqn:E; cbn [andb].
    + apply eqa in E. subst a. destruct (C pre s eq_refl) as (p & ->). rewrite rev_app_distr. cbn [rev List.app pesc negb]. change (bs =a bs) with true. cbn [negb]. specialize (IH ((p ++ [bs]) ++ [pct])). rewrite rev_app_distr in IH. cbn [rev List.app] in IH. rewrite IH; [now rewrite <- !app_assoc|now rewrite <- app_assoc|]. intros b. rewrite <- app_assoc. apply N.
    + specialize (IH (pre ++ [a])). rewrite rev_app_distr in IH. cbn [rev List.app] in IH. rewrite IH; [now rewrite <- app_assoc|now rewrite <- app_assoc|]. intros b. rewrite <- app_assoc. apply N.
Qed.
Lemma extract_hide mk ls : forall k, Forall line_ok ls -> extract mk (map show ls) k = (hide mk k ls, comments ls).
Proof.
  induction ls as [|[s [c|]] ls IH]; intros k F; [reflexivity| |]; inversion F as [|? ? (C & _ & N) F']; subst; cbn [map extract hide comments show fst snd] in *.
  - pose proof (comment_some c s [] C (N ltac:(discriminate))) as K. cbn [rev List.app] in K. unfold show. cbn [fst snd]. rewrite K. rewrite IH by exact F'. reflexivity.
  - unfold show. cbn [fst snd]. rewrite app_nil_r. pose proof (comment_none s [] C) as K. cbn [rev] in K. rewrite K. rewrite IH by exact F'. reflexivity.
Qed.
Lemma split_join ls : ls <> [] -> Forall (fun x => ~ In nl x) ls -> split_on nl (join [nl] ls) = ls.
Proof.
  assert (forall x, ~ In nl x -> split_on nl x = [x]) as K1. { induction x as [|a x IH]; intros N; [reflexivity|]. cbn [split_on]. assert (a =a nl = false) as -> by (apply neqa; intros ->; apply N; now left). rewrite IH; [reflexivity|intros H; apply N; now right]. }
  assert (forall x r, ~ In nl x -> split_on nl (x ++ nl :: r) = x :: split_on nl r) as K2. { induction x as [|a x IH]; intros r N; cbn [List.app split_on]; [reflexivity|]. assert (a =a nl = false) as -> by (apply neqa; intros ->; apply N; now left). rewrite IH; [reflexivity|intros H; apply N; now right]. }
  induction ls as [|x ls IH]; intros Ne F; [contradiction|]. inversion F; subst. rewrite join_cons. destruct ls as [|y ls]; [rewrite app_nil_r; now apply K1|]. rewrite K2 by auto. rewrite IH; auto. discriminate.
Qed.
Lemma split_nonempty s : split_on nl s <> [].
Proof. destruct s as [|a s]; cbn [split_on]; [discriminate|]. destruct (a =a nl); [discriminate|]. destruct (split_on nl s); discriminate. Qed.
(** every file is such a list of lines *)
Theorem C58_lines : forall f, exists ls, ls <> [] /\ f = shown ls /\ Forall line_ok ls.
Proof.
  assert (forall s, ~ In nl s -> exists l, s = show l /\ line_ok l) as K.
  { intros s N. assert (forall r pre, code_ok pre -> (forall c, r <> c -> True) -> (exists c d, r = c ++ pct :: d /\ code_ok (pre ++ c) /\ (forall a, pre ++ c <> a ++ [bs])) \/ code_ok (pre ++ r)) as Q.
    { induction r as [|a r IH]; intros pre C _; [right; now rewrite app_nil_r|]. destruct (a =a pct) eqn:E.
      - apply eqa in E. subst a. destruct (rev pre) as [|b q] eqn:Er.
        + left. exists [], r. rewrite app_nil_r. repeat split; auto. intros a Ha. rewrite Ha in Er. rewrite rev_app_distr in Er. discriminate.
        + destruct (b =a bs) eqn:Eb; [|left; exists [], r; rewrite app_nil_r; repeat split; auto; intros a Ha; rewrite Ha in Er; rewrite rev_app_distr in Er; injection Er as <- _; discriminate]. apply eqa in Eb. subst b.
          assert (pre = rev q ++ [bs]) as Ep by (rewrite <- (rev_involutive pre), Er; reflexivity).
          assert (code_ok (pre ++ [pct])) as C2. { intros x y Hxy. destruct y as [|z y] using rev_ind; [apply app_inj_tail in Hxy; destruct Hxy as (<- & _); now exists (rev q)|]. clear IHy. rewrite app_comm_cons, app_assoc in Hxy. apply app_inj_tail in Hxy. destruct Hxy as (Hxy & _). eapply C; exact Hxy. }
          destruct (IH (pre ++ [pct]) C2 (fun _ _ => I)) as [(c & d & -> & C3 & N3)|C3]; [left|right; now rewrite <- app_assoc in C3]. exists (pct :: c), d. rewrite <- app_assoc in C3. split; [reflexivity|]. split; [exact C3|]. intros a. specialize (N3 a). rewrite <- app_assoc in N3. exact N3.
      - apply neqa in E. assert (code_ok (pre ++ [a])) as C2. { intros x y Hxy. destruct y as [|z y] using rev_ind; [apply app_inj_tail in Hxy; destruct Hxy as (_ & Q); congruence|]. clear IHy. rewrite app_comm_cons, app_assoc in Hxy. apply app_inj_tail in Hxy. destruct Hxy as (Hxy & _). eapply C; exact Hxy. }
        destruct (IH (pre ++ [a]) C2 (fun _ _ => I)) as [(c & d & -> & C3 & N3)|C3]; [left|right; now rewrite <- app_assoc in C3]. exists (a :: c), d. rewrite <- app_assoc in C3. split; [reflexivity|]. split; [exact C3|]. intros b. specialize (N3 b). rewrite <- app_assoc in N3. exact N3. }
    destruct (Q s [] ltac:(intros [|] ?; discriminate) (fun _ _ => I)) as [(c & d & -> & C3 & N3)|C3].
    - exists (c, Some d). split; [reflexivity|]. split; [exact C3|]. split; [exact N|]. intros _. exact N3.
    - exists (s, None). unfold line_ok, show. cbn [fst snd]. rewrite app_nil_r. split; [reflexivity|]. split; [exact C3|]. split; [exact N|]. congruence. }
  intros f. assert (f = join [nl] (split_on nl f)) as Ef.
  { induction f as [|a f IH]; [reflexivity|]. cbn [split_on]. destruct (a =a nl) eqn:E.
    - apply eqa in E. subst a. rewrite join_cons. destruct (split_on nl f) as [|x l] eqn:Q; [now apply split_nonempty in Q|]. cbn [List.app]. now f_equal.
    - destruct (split_on nl f) as [|x l] eqn:Q; [now apply split_nonempty in Q|]. rewrite join_cons in *. cbn [List.app]. now f_equal. }
  pose proof (split_nl_no f) as Ns. assert (split_on nl f <> []) as Ne by apply split_nonempty.
  assert (exists ls, split_on nl f = map show ls /\ Forall line_ok ls) as (ls & El & Fl). { clear Ef Ne. induction Ns as [|x l Hx Ns (ls & -> & Fl)]; [exists []; auto|]. destruct (K x Hx) as (y & -> & Hy). exists (y :: ls). auto. }
  exists ls. split; [intros ->; apply Ne; exact El|]. split; [|exact Fl]. unfold shown. now rewrite <- El.
Qed.
Lemma split_document_spec lines p c : split_document lines = (p, Some c) -> lines = p ++ c /\ c <> [] /\ (match lines with l :: _ => ~ sub (L "\begin{document}") l -> p <> [] | [] => True end).
Proof.
  revert p. induction lines as [|l lines IH]; intros p; cbn [split_document]; [discriminate|]. destruct (mem (L "\begin{document}") l) eqn:M.
  - intros [= <- <-]. split; [reflexivity|]. split; [discriminate|]. intros N. exfalso. apply N. now apply mem_spec.
  - destruct (split_document lines) as [q d]. intros [= <- ->]. destruct (IH q eq_refl) as (-> & Nc & _). split; [reflexivity|]. split; [exact Nc|]. discriminate.
Qed.
Lemma join_app p c : p <> [] -> c <> [] -> join [nl] (p ++ c) = (join [nl] p ++ [nl]) ++ join [nl] c.
Proof.
  intros Np Nc. induction p as [|x p IH]; [contradiction|]. cbn [List.app]. rewrite !join_cons. destruct p as [|y p]; [cbn [List.app]; destruct c; [contradiction|]; assoc|]. cbn [List.app] in *. rewrite IH by discriminate. assoc.
Qed.
Lemma no_begin mk s k : marker mk -> ~ sub (L "\begin{document}") s -> ~ sub (L "\begin{document}") (s ++ tag mk k).
Proof.
  intros M N H. unfold tag in H. change (L "\begin{document}") with (bs :: L "begin{document}") in *. destruct (sub_split bs (L "begin{document}") s bs _ ltac:(cbn; intuition discriminate) H) as [H1|(x & y & E)]; [contradiction|].
  pose proof (marker_wordy _ M) as Mw. destruct x as [|g x]; [destruct M as (d & -> & F); discriminate|]. cbn [List.app] in E. injection E as <- E. assert (In bs (mk ++ lb :: decimal k ++ [rb])) as I by (rewrite E; apply in_or_app; right; now left).
  apply in_app_or in I. destruct I as [I|[I|I]]; [revert I; now apply wordy_in|discriminate|]. apply in_app_or in I. destruct I as [I|[I|[]]]; [|discriminate]. revert I. apply decimal_no. right. vm_compute. lia.
Qed.
Lemma load_restored mk ls g : ls <> [] -> Forall line_ok ls -> marker mk -> ~ sub mk (shown ls) -> clean (hidden mk ls) -> tidy (hidden mk ls) -> class_ok (hidden mk ls) ->
  (match ls with l :: _ => ~ sub (L "\begin{document}") (fst l) | [] => True end) -> file_text mk (shown ls) = Ok g -> restored mk (comments ls) g (hidden mk ls).
Proof.
  intros Ne F M Nm C T K B. unfold file_text, texfile, shown. rewrite split_join; [|intros H; apply map_eq_nil in H; contradiction|apply Forall_map; eapply Forall_impl; [|exact F]; now intros l (_ & H & _)]. rewrite extract_hide by exact F. destruct (split_document (hide mk 0 ls)) as [p [c|]] eqn:Sd; [|discriminate]. destruct (split_document_spec _ _ _ Sd) as (Eh & Nc & Np).
  assert (p <> []) as Np'. { destruct ls as [|[s [o|]] ls]; [contradiction| |]; cbn [hide fst] in *; apply Np; [now apply no_begin|exact B]. } clear Np.
  assert (hidden mk ls = (join [nl] p ++ [nl]) ++ join [nl] c) as Ehid by (unfold hidden; rewrite Eh; now apply join_app). set (t1 := join [nl] p ++ [nl]) in *. set (t2 := join [nl] c) in *.
  assert (sub t1 (hidden mk ls)) as S1 by (rewrite Ehid; apply sub_app_l). assert (sub t2 (hidden mk ls)) as S2 by (rewrite Ehid; apply sub_app_r).
  unfold preamble. destruct (text_to_nodes t1) as [n1|e|] eqn:E1; cbn [bindr]; try discriminate. destruct (mapr preamble_node n1) as [n1'|e|] eqn:Ep; cbn [bindr]; try discriminate. destruct (text_to_nodes t2) as [n2|e|] eqn:E2; cbn [bindr]; try discriminate.
  pose proof (C57_exact _ _ (clean_sub _ _ C S1) (tidy_sub _ _ T S1) E1) as P1. pose proof (C57_exact _ _ (clean_sub _ _ C S2) (tidy_sub _ _ T S2) E2) as P2. unfold text_to_nodes in E1, E2. pose proof (parse_wf _ _ _ (clean_sub _ _ C S1) (tidy_sub _ _ T S1) E1) as W1. pose proof (parse_wf _ _ _ (clean_sub _ _ C S2) (tidy_sub _ _ T S2) E2) as W2.
  assert (n1' = n1) as ->. { apply mapr_ok in Ep. clear -Ep W1 K T S1. induction Ep as [|a b l q Ha H IH]; [reflexivity|]. inversion W1 as [|? ? (Wa & Sa) W1']; subst. rewrite IH by exact W1'. f_equal. eapply preamble_node_id; [exact K|exact T|exact Wa| |exact Ha]. eapply cmd_src_sub; eauto. }
  destruct (addin mk (comments ls) n1) as [m1|e|] eqn:A1; cbn [bindr]; try discriminate. destruct (addin mk (comments ls) n2) as [m2|e|] eqn:A2; cbn [bindr fst snd]; try discriminate. intros [= <-].
  assert (Forall (fun t => exists c, t = pct :: c) (comments ls)) as Cp. { clear. induction ls as [|[s [c|]] ls IH]; cbn [comments]; [constructor|constructor; eauto|exact IH]. }
  pose proof (hid_framed mk (marker_wordy _ M) ls 0 Ne Nm) as Fr. change (hid mk 0 ls) with (hidden mk ls) in Fr. assert (forall ns t, Forall (fun m => wf m /\ cmd_src t m) ns -> Forall wf ns) as Wf by (intros ns t H; eapply Forall_impl; [|exact H]; now intros a (H1 & _)).
  rewrite Ehid. apply restored_app.
  - rewrite <- P1 at 1. apply (addin_list mk (comments ls) Cp (hidden mk ls) [] t2); eauto. rewrite P1. exact Ehid.
  - rewrite <- P2 at 1. apply (addin_list mk (comments ls) Cp (hidden mk ls) t1 []); eauto. rewrite P2, app_nil_r. exact Ehid.
Qed.
(** ** C58: a file that loads is saved as it was, or the marker is seen in what is saved *)
Theorem C58_comments : forall mk ls g, ls <> [] -> Forall line_ok ls -> marker mk -> ~ sub mk (shown ls) -> clean (hidden mk ls) -> tidy (hidden mk ls) -> class_ok (hidden mk ls) ->
  (match ls with l :: _ => ~ sub (L "\begin{document}") (fst l) | [] => True end) -> file_text mk (shown ls) = Ok g -> g = shown ls \/ sub mk g.
Proof.
  intros mk ls g Ne F M Nm C T K B H. pose proof (load_restored mk ls g Ne F M Nm C T K B H) as R. destruct (mem mk g) eqn:E; [right; now apply mem_spec|]. left. apply (restored_shown mk (marker_wordy _ M) ls 0 [] g); auto. intros Q. apply mem_spec in Q. congruence.
Qed.
Theorem C58_no_comments : forall mk f g, ~ In pct f -> marker mk -> ~ sub mk f -> clean f -> tidy f -> class_ok f -> (exists l r, f = l ++ nl :: r /\ ~ In nl l /\ ~ sub (L "\begin{document}") l) -> file_text mk f = Ok g -> g = f.
Proof.
  intros mk f g Np M Nm C T K B H. destruct (C58_lines f) as (ls & Ne & Ef & F). assert (Forall (fun l => snd l = None) ls /\ hidden mk ls = f) as (Fn & Eh).
  { rewrite Ef in Np |- *. clear -Np Ne. revert Ne Np. unfold hidden. generalize 0%nat. intros k Ne Np. revert k. revert Ne Np. induction ls as [|[s o] ls IH]; [contradiction|]. intros Ne Np k. rewrite shown_cons in Np |- *. destruct o as [c|]. { exfalso. apply Np. unfold show. cbn [fst snd]. rewrite <- app_assoc. apply in_or_app. right. now left. } change (join [nl] (hide mk k ((s, None) :: ls))) with (hid mk k ((s, None) :: ls)). rewrite hid_none. unfold show. cbn [fst snd]. rewrite app_nil_r in *. destruct ls as [|l ls]; [split; [repeat constructor|reflexivity]|]. assert (~ In pct (shown (l :: ls))) as Np' by (intros Q; apply Np; apply in_or_app; right; now right). destruct (IH ltac:(discriminate) Np' k) as (F & E). split; [constructor; auto|]. f_equal. f_equal. exact E. }
  apply (restored_none mk (marker_wordy _ M) (comments ls)); auto. rewrite <- Eh at 1. rewrite Ef in H, Nm. apply load_restored; auto; try (rewrite Eh; assumption).
  destruct B as (l & r & Efl & Nl & B). destruct ls as [|[s o] ls]; [exact I|]. cbn [fst]. pose proof (Forall_inv Fn) as Ho. cbn [snd] in Ho. subst o. rewrite Ef in Efl. rewrite shown_cons in Efl. unfold show in Efl. cbn [fst snd] in Efl. rewrite app_nil_r in Efl. destruct (Forall_inv F) as (_ & Nn & _). unfold show in Nn. cbn [fst snd] in Nn. rewrite app_nil_r in Nn.
  destruct ls as [|m ls]; [exfalso; apply Nn; rewrite app_nil_r in Efl; rewrite Efl; apply in_or_app; right; now left|]. destruct (until_unique nl _ _ _ _ Nn Nl Efl) as (-> & _). exact B.
Qed.

(** ** where it fails *)
Definition NL : str := [nl].
Definition lines (l : list string) : str := join NL (map L l).
(** a comment inside a command's argument is lost *)
Theorem C58_argument_refuted : file_text (L "astppubcomment") (lines ["\documentclass{a}"; "\begin{document}"; "x\footnote{% why"; "y} \end{document}"]%string) = Ok (lines ["\documentclass{a}"; "\begin{document}"; "x\footnote{\astppubcomment{0}"; "y} \end{document}"]%string).
Proof. vm_compute. reflexivity. Qed.
(** a file that starts with its document gains a line *)
Theorem C58_first_line_refuted : file_text (L "astppubcomment") (lines ["\begin{document}"; "x \end{document}"]%string) = Ok (lines [""; "\begin{document}"; "x \end{document}"]%string).
Proof. vm_compute. reflexivity. Qed.
(** a file without a document cannot be loaded *)
Theorem C58_no_document_refuted : file_text (L "astppubcomment") (lines ["\documentclass{a}"; "x"]%string) = Raise TypeError.
Proof. vm_compute. reflexivity. Qed.
(** the options of \documentclass are moved or dropped *)
Theorem C58_class_refuted : file_text (L "astppubcomment") (lines ["\documentclass{a}[b]"; "\documentclass[ ]{a}"; "\begin{document}"; "\end{document}"]%string) = Ok (lines ["\documentclass[b]{a}"; "\documentclass{a}"; "\begin{document}"; "\end{document}"]%string).
Proof. vm_compute. reflexivity. Qed.
(** a file that is saved as it was *)
Example C58_holds : file_text (L "astppubcomment") (lines ["% a paper"; "\documentclass[12pt]{aastex} % class"; ""; "\begin{document} %start"; "50\% of $x_1 % one"; " + y$ \section*{A}"; "\cite[see][]{b} \left[ x \right] %"; "\end{document}"; "% end"]%string) = Ok (lines ["% a paper"; "\documentclass[12pt]{aastex} % class"; ""; "\begin{document} %start"; "50\% of $x_1 % one"; " + y$ \section*{A}"; "\cite[see][]{b} \left[ x \right] %"; "\end{document}"; "% end"]%string).
Proof. vm_compute. reflexivity. Qed.

(** ** the hypotheses can be checked, and hold of that file *)
Fixpoint suffixes (s : str) : list str := s :: match s with [] => [] | _ :: r => suffixes r end.
Lemma sub_suffix x t : sub x t -> exists y, In (x ++ y) (suffixes t).
Proof. intros (a & b & ->). exists b. induction a as [|h a IH]; cbn [List.app suffixes]; [destruct (x ++ b); now left|right; exact IH]. Qed.
Lemma span_stop f x a r : Forall (fun b => f b = true) x -> f a = false -> span f (x ++ a :: r) = (x, a :: r).
Proof. induction 1 as [|b x Hb F IH]; intros Ha; cbn [List.app span]; [now rewrite Ha|]. now rewrite Hb, IH. Qed.
Lemma span_more f x r : Forall (fun b => f b = true) x -> exists y, fst (span f (x ++ r)) = x ++ y.
Proof. induction 1 as [|b x Hb F (y & IH)]; cbn [List.app span]; [eauto|]. rewrite Hb. destruct (span f (x ++ r)). cbn [fst] in *. exists y. now rewrite IH. Qed.
Definition isnt (c a : ascii) : bool := negb (a =a c).
Lemma isnt_all c x : ~ In c x -> Forall (fun a => isnt c a = true) x.
Proof. intros N. apply Forall_forall. intros a Ha. unfold isnt. apply negb_true_iff. apply neqa. intros ->. contradiction. Qed.
Definition cleanb (t : str) : bool :=
  negb (mem (L "$$") t) && forallb (fun s =>
    (match s with a :: r => negb (a =a lb) || match snd (span is_space r) with b :: w :: _ => negb ((b =a bs) && is_word w) | _ => true end | [] => true end) &&
    (match drop (L "\right") s with Some (c :: _) => negb (opener c) | _ => true end) &&
    (match drop begin_ s with Some r => negb (mem (L "\end") (fst (span (isnt rb) r))) | None => true end)) (suffixes t).
Lemma cleanb_ok t : cleanb t = true -> clean t.
Proof.
  intros H. apply andb_true_iff in H. destruct H as (H1 & H). rewrite forallb_forall in H. intros x B S. destruct (sub_suffix _ _ S) as (y & Iy). specialize (H _ Iy). apply andb_true_iff in H. destruct H as (H & H4). apply andb_true_iff in H. destruct H as (H2 & H3). destruct B as [|ws w Fw Hw|c Hc|n Nn].
  - apply mem_spec in S. rewrite S in H1. discriminate.
  - cbn [List.app] in H2. change (lb =a lb) with true in H2. cbn [negb orb] in H2. rewrite <- app_assoc in H2. cbn [List.app] in H2. rewrite (span_stop is_space ws bs (w :: y) Fw eq_refl) in H2. cbn [snd] in H2. rewrite Hw in H2. discriminate.
  - rewrite <- app_assoc in H3. rewrite drop_app in H3. cbn [List.app] in H3. rewrite Hc in H3. discriminate.
  - rewrite <- app_assoc in H4. rewrite drop_app in H4. rewrite <- app_assoc in H4. destruct (span_more (isnt rb) (n ++ L "\end") y) as (z & E). { apply isnt_all. intros Q. apply in_app_or in Q. destruct Q as [Q|Q]; [contradiction|]. revert Q. cbn. intuition discriminate. } rewrite <- app_assoc in E. rewrite E in H4. assert (mem (L "\end") ((n ++ L "\end") ++ z) = true) as Em by (apply mem_spec; exists n, z; now rewrite <- app_assoc). rewrite Em in H4. discriminate.
Qed.
Definition has (c : ascii) (s : str) : bool := existsb (fun a => a =a c) s.
Definition tidyb (t : str) : bool := forallb (fun s => match s with a :: r => (negb (a =a lb) || negb (has rsq (fst (span (isnt rb) r)))) && (negb (a =a lsq) || negb (has rb (fst (span (isnt rsq) r)))) | [] => true end) (suffixes t).
Lemma tidyb_ok t : tidyb t = true -> tidy t.
Proof.
  intros H. unfold tidyb in H. rewrite forallb_forall in H. split; intros x N S; destruct (sub_suffix _ _ S) as (y & Iy); specialize (H _ Iy); cbn [List.app] in H; apply andb_true_iff in H; destruct H as (H1 & H2); rewrite <- app_assoc in *.
  - change (lb =a lb) with true in H1. cbn [negb orb] in H1. destruct (span_more (isnt rb) (x ++ [rsq]) y) as (z & E). { apply isnt_all. intros Q. apply in_app_or in Q. destruct Q as [Q|[Q|[]]]; [contradiction|discriminate]. } rewrite <- app_assoc in E. rewrite E in H1. assert (has rsq ((x ++ [rsq]) ++ z) = true) as Eh by (apply existsb_exists; exists rsq; split; [apply in_or_app; left; apply in_or_app; right; now left|apply Ascii.eqb_refl]). rewrite Eh in H1. discriminate.
  - change (lsq =a lsq) with true in H2. cbn [negb orb] in H2. destruct (span_more (isnt rsq) (x ++ [rb]) y) as (z & E). { apply isnt_all. intros Q. apply in_app_or in Q. destruct Q as [Q|[Q|[]]]; [contradiction|discriminate]. } rewrite <- app_assoc in E. rewrite E in H2. assert (has rb ((x ++ [rb]) ++ z) = true) as Eh by (apply existsb_exists; exists rb; split; [apply in_or_app; left; apply in_or_app; right; now left|apply Ascii.eqb_refl]). rewrite Eh in H2. discriminate.
Qed.
Definition classb (t : str) : bool := forallb (fun s => (match drop (L "\documentclass") s with Some r => match snd (span (isnt rb) r) with _ :: c :: _ => negb (opener c) | _ => true end | None => true end) && (match drop (L "\documentclass[") s with Some r => match snd (span is_space r) with c :: _ => negb (c =a rsq) | [] => true end | None => true end)) (suffixes t).
Lemma classb_ok t : classb t = true -> class_ok t.
Proof.
  intros H. unfold classb in H. rewrite forallb_forall in H. split.
  - intros x c N Hc S. destruct (sub_suffix _ _ S) as (y & Iy). specialize (H _ Iy). apply andb_true_iff in H. destruct H as (H1 & _). rewrite <- app_assoc in H1. rewrite drop_app in H1. rewrite <- app_assoc in H1. cbn [List.app] in H1. rewrite (span_stop (isnt rb) x rb (c :: y) (isnt_all _ _ N) eq_refl) in H1. cbn [snd] in H1. rewrite Hc in H1. discriminate.
  - intros ws F S. destruct (sub_suffix _ _ S) as (y & Iy). specialize (H _ Iy). apply andb_true_iff in H. destruct H as (_ & H1). rewrite <- app_assoc in H1. rewrite drop_app in H1. rewrite <- app_assoc in H1. cbn [List.app] in H1. rewrite (span_stop is_space ws rsq y F eq_refl) in H1. discriminate.
Qed.
Fixpoint codeb (prev : option ascii) (s : str) : bool := match s with [] => true | a :: r => negb ((a =a pct) && negb (pesc prev)) && codeb (Some a) r end.
Lemma codeb_ok s : forall prev, codeb prev s = true -> forall a b, s = a ++ pct :: b -> (a = [] /\ prev = Some bs) \/ exists a', a = a' ++ [bs].
Proof.
  induction s as [|h s IH]; intros prev H a b E; [destruct a; discriminate|]. cbn [codeb] in H. apply andb_true_iff in H. destruct H as (H1 & H2). destruct a as [|g a]; cbn [List.app] in E; injection E as -> E.
  - left. split; [reflexivity|]. change (pct =a pct) with true in H1. cbn [andb negb] in H1. rewrite negb_involutive in H1. destruct prev as [q|]; [|discriminate]. apply eqa in H1. now subst q.
  - right. destruct (IH (Some g) H2 a b E) as [(-> & [= ->])|(a' & ->)]; [now exists []|now exists (g :: a')].
Qed.
Definition lineb (l : line) : bool := codeb None (fst l) && negb (has nl (show l)) && match snd l with Some _ => match rev (fst l) with a :: _ => negb (a =a bs) | [] => true end | None => true end.
Lemma lineb_ok l : lineb l = true -> line_ok l.
Proof.
  intros H. apply andb_true_iff in H. destruct H as (H & H3). apply andb_true_iff in H. destruct H as (H1 & H2). split; [|split].
  - intros a b E. destruct (codeb_ok _ _ H1 a b E) as [(_ & H)|H]; [discriminate|exact H].
  - intros I. assert (has nl (show l) = true) as Q by (apply existsb_exists; exists nl; split; [exact I|apply Ascii.eqb_refl]). rewrite Q in H2. discriminate.
  - intros N a E. destruct (snd l); [|congruence]. rewrite E, rev_app_distr in H3. discriminate.
Qed.
Definition paper : list line := map (fun p => (L (fst p), option_map L (snd p)))
  [("", Some " a paper"); ("\documentclass[12pt]{aastex} ", Some " class"); ("", None); ("\begin{document} ", Some "start"); ("50\% of $x_1 ", Some " one"); (" + y$ \section*{A}", None); ("\cite[see][]{b} \left[ x \right] ", Some ""); ("\end{document}", None); ("", Some " end")]%string.
Example C58_met : Forall line_ok paper /\ marker (L "astppubcomment") /\ ~ sub (L "astppubcomment") (shown paper) /\ clean (hidden (L "astppubcomment") paper) /\ tidy (hidden (L "astppubcomment") paper) /\ class_ok (hidden (L "astppubcomment") paper) /\ file_text (L "astppubcomment") (shown paper) = Ok (shown paper).
Proof.
  split; [apply Forall_forall; intros l Hl; apply lineb_ok; assert (forallb lineb paper = true) as H by (vm_compute; reflexivity); rewrite forallb_forall in H; now apply H|]. split; [exists []; split; [reflexivity|constructor]|]. split; [intros H; apply mem_spec in H; vm_compute in H; discriminate|]. split; [apply cleanb_ok; vm_compute; reflexivity|]. split; [apply tidyb_ok; vm_compute; reflexivity|]. split; [apply classb_ok; vm_compute; reflexivity|]. vm_compute. reflexivity.
Qed.
