(** * PubDecl: declarations such as {\it text} are conserved (C57) *)
From Coq Require Import List Bool ZArith String Ascii Arith Lia.
From Verif Require Import PyBase PubModel PubProps PubFile PubComments.
Import ListNotations.

(** ** Specification *)
(** text without anything LaTeX would interpret (square brackets are allowed) *)
Definition ordinary (s : str) : Prop := Forall (fun a => a <> bs /\ a <> lb /\ a <> rb /\ a <> dollar) s.
(** {pad\name body}after *)
Record decl := D { pad : str; dname : str; body : str; after : str }.
Definition decl_ok (d : decl) : Prop :=
  Forall (fun a => is_space a = true) (pad d) /\ dname d <> [] /\ Forall (fun a => is_word a = true) (dname d) /\ dname d <> L "left" /\ dname d <> L "right" /\
  (exists c r, body d = c :: r /\ is_space c = true) /\ ordinary (body d) /\ ordinary (after d).
Definition decl_text (d : decl) : str := lb :: pad d ++ bs :: dname d ++ body d ++ rb :: after d.

Lemma ordinary_in c s : ordinary s -> c = bs \/ c = lb \/ c = rb \/ c = dollar -> ~ In c s.
Proof. intros O H I. unfold ordinary in O. rewrite Forall_forall in O. specialize (O c I). intuition congruence. Qed.
Lemma ordinary_plain s : ordinary s -> plain s.
Proof.
  intros O. assert (forall c x, In c x -> c = bs \/ c = lb \/ c = rb \/ c = dollar -> ~ sub x s) as N. { intros c x Ix Hc (a & b & ->). apply (ordinary_in c _ O Hc). apply in_or_app. right. apply in_or_app. now left. }
  split; [|split; [split|split; [|split]]].
  - intros x B. destruct B; [apply (N dollar); [now left|tauto]|apply (N lb); [now left|tauto]|apply (N bs); [now left|tauto]|apply (N bs); [now left|tauto]].
  - intros x _. apply (N lb); [now left|tauto].
  - intros x _. apply (N rb); [right; apply in_or_app; right; now left|tauto].
  - apply (N bs); [now left|tauto].
  - apply (N bs); [now left|tauto].
  - apply (N bs); [now left|tauto].
Qed.
Lemma ordinary_parse n s : ordinary s -> (List.length s < n)%nat -> exists ns, parse n s = Ok ns /\ prints ns = s.
Proof.
  intros O H. pose proof (ordinary_plain _ O) as P. destruct (parse_total n s H P) as (ns & E & _). exists ns. split; [exact E|]. destruct P as (C & T & _). apply (parse_conserves eq tidy) with (n := n); auto.
  - intros; congruence.
  - intros x t Ht Sx. eapply tidy_sub; eauto.
  - intros ar args Ta A M. now apply make_args_exact.
Qed.
(** the pieces *)
Fixpoint enc (a : str) (ds : list decl) : list piece := match ds with [] => [PStr a] | d :: r => PStr (a ++ lb :: pad d) :: PCmd (dname d) [] :: enc (body d ++ rb :: after d) r end.
Definition texts (ds : list decl) : str := List.concat (map decl_text ds).
Lemma cmd_split_skip x : forall n acc r, ~ In bs x -> (List.length x <= n)%nat -> cmd_split n acc (x ++ r) = cmd_split (n - List.length x) (acc ++ x) r.
Proof.
  induction x as [|a x IH]; intros n acc r N H; cbn [List.app List.length]; [now rewrite app_nil_r, Nat.sub_0_r|]. destruct n as [|n]; [cbn in H; lia|]. cbn [cmd_split]. assert (a =a bs = false) as -> by (apply neqa; intros ->; apply N; now left). rewrite IH; [|intros Q; apply N; now right|cbn in H; lia]. rewrite <- app_assoc. reflexivity.
Qed.
Lemma cmd_at_name w c r : w <> [] -> Forall (fun a => is_word a = true) w -> is_space c = true -> cmd_at (w ++ c :: r) = Some (w, [], c :: r).
Proof.
  intros Nw F Hc. assert (is_word c = false) as Wc by (clear -Hc; revert Hc; destruct c as [[] [] [] [] [] [] [] []]; vm_compute; congruence). assert (span is_word (w ++ c :: r) = (w, c :: r)) as E. { clear Nw. induction F as [|a w Ha F IH]; cbn [List.app span]; [now rewrite Wc|]. now rewrite Ha, IH. }
  unfold cmd_at. rewrite E. destruct w as [|a w]; [contradiction|]. assert (c =a star = false) as -> by (apply neqa; intros ->; discriminate). assert (blocks (List.length (c :: r)) (c :: r) = ([], c :: r)) as ->; [|reflexivity]. cbn [List.length blocks]. assert (c =a lb = false) as -> by (apply neqa; intros ->; discriminate). assert (c =a lsq = false) as -> by (apply neqa; intros ->; discriminate). reflexivity.
Qed.
Lemma spaces_no c s : Forall (fun a => is_space a = true) s -> is_space c = false -> ~ In c s.
Proof. intros F H I. rewrite Forall_forall in F. specialize (F c I). congruence. Qed.
Lemma words_no c s : Forall (fun a => is_word a = true) s -> is_word c = false -> ~ In c s.
Proof. intros F H I. rewrite Forall_forall in F. specialize (F c I). congruence. Qed.
Lemma cmd_split_enc ds : Forall decl_ok ds -> forall n a, ~ In bs a -> (List.length (texts ds) <= n)%nat -> cmd_split n a (texts ds) = enc a ds.
Proof.
  induction 1 as [|d ds Hd F IH]; intros n a Na Hn; cbn [enc].
  - change (texts []) with (@nil ascii). destruct n; cbn [cmd_split]; now rewrite app_nil_r.
  - destruct Hd as (Hp & Nw & Fw & _ & _ & (c & r & Eb & Hc) & Ob & Oa). change (texts (d :: ds)) with ((lb :: pad d ++ bs :: dname d ++ body d ++ rb :: after d) ++ texts ds).
    assert (~ In bs (lb :: pad d)) as Np by (intros [H|H]; [discriminate|revert H; now apply spaces_no]). replace ((lb :: pad d ++ bs :: dname d ++ body d ++ rb :: after d) ++ texts ds) with ((lb :: pad d) ++ bs :: dname d ++ c :: (r ++ rb :: after d ++ texts ds)) by (rewrite Eb; assoc).
    assert (List.length (texts (d :: ds)) = List.length (lb :: pad d) + S (List.length (dname d) + (List.length (body d) + S (List.length (after d) + List.length (texts ds)))))%nat as Ln by (unfold texts; cbn [map List.concat]; unfold decl_text; rewrite !app_length; cbn [List.length]; repeat (rewrite !app_length; cbn [List.length]); lia).
    rewrite (cmd_split_skip (lb :: pad d)); [|exact Np|lia]. remember (n - List.length (lb :: pad d))%nat as m. destruct m as [|m]; [lia|]. cbn [cmd_split]. change (bs =a bs) with true. cbn [andb]. rewrite (cmd_at_name (dname d) c _ Nw Fw Hc). f_equal. f_equal.
    replace (c :: r ++ rb :: after d ++ texts ds) with ((body d ++ rb :: after d) ++ texts ds) by (rewrite Eb; assoc). assert (~ In bs (body d ++ rb :: after d)) as Nx. { intros H. apply in_app_or in H. destruct H as [H|[H|H]]; [|discriminate|]; revert H; apply ordinary_in; auto. }
    rewrite (cmd_split_skip (body d ++ rb :: after d)); [|exact Nx|rewrite app_length; cbn [List.length]; lia]. cbn [List.app]. apply IH; [exact Nx|]. rewrite app_length. cbn [List.length]. lia.
Qed.
(** no environment or mathematics *)
Lemma env_search_none t : forall acc, ~ In dollar t -> (forall r, ~ sub (L "\begin{" ++ r) t) -> env_search acc t = None.
Proof.
  assert (forall t, ~ In dollar t -> ~ sub begin_ t -> env_at t = None) as K. { intros u Nd Nb. unfold env_at. destruct (drop begin_ u) as [q|] eqn:D; [exfalso; apply Nb; apply drop_spec in D; exists [], q; exact D|]. destruct u as [|a u]; [reflexivity|]. cbn [math_at]. assert (a =a dollar = false) as -> by (apply neqa; intros ->; apply Nd; now left). reflexivity. }
  induction t as [|a t IH]; intros acc Nd Nb; cbn [env_search]; (rewrite K; [|exact Nd|intros (x & y & E); apply (Nb []); exists x, y; exact E]); [reflexivity|]. apply IH; [intros H; apply Nd; now right|]. intros r H. apply (Nb r). eapply sub_trans; [exact H|]. exists [a], []. now rewrite app_nil_r.
Qed.
(** the items before and after the declarations are made; [f] is the parsed body *)
Fixpoint before_ (a : str) (ds : list decl) : list it := match ds with [] => [S_ a] | d :: r => S_ (a ++ lb :: pad d) :: N_ (Cmd (dname d) []) :: before_ (body d ++ rb :: after d) r end.
Fixpoint after_ (f : str -> list node) (a : str) (ds : list decl) : list it := match ds with [] => [S_ a] | d :: r => S_ a :: N_ (Decl (pad d) (Cmd (dname d) []) (f (body d))) :: after_ f (after d) r end.
Lemma count_no c s : ~ In c s -> count c s = 0%Z.
Proof. induction s as [|a s IH]; intros N; cbn [count]; [reflexivity|]. assert (a =a c = false) as -> by (apply neqa; intros ->; apply N; now left). rewrite IH; [reflexivity|intros H; apply N; now right]. Qed.
Lemma count_app c a b : (count c (a ++ b) = count c a + count c b)%Z.
Proof. induction a as [|x a IH]; cbn [List.app count]; [reflexivity|]. rewrite IH. lia. Qed.
Lemma close_here b r : ~ In lb b -> ~ In rb b -> close 1 (b ++ rb :: r) = Some (b, r).
Proof.
  induction b as [|a b IH]; intros N1 N2; cbn [List.app close].
  - change (rb =a lb) with false. change (rb =a rb) with true. reflexivity.
  - assert (a =a lb = false) as -> by (apply neqa; intros ->; apply N1; now left). assert (a =a rb = false) as -> by (apply neqa; intros ->; apply N2; now left). cbn [Nat.eqb]. rewrite IH; [reflexivity| |]; intros H; [apply N1|apply N2]; now right.
Qed.
Lemma ends_brace_pad a p : Forall (fun x => is_space x = true) p -> ends_brace (a ++ lb :: p) = true.
Proof.
  intros F. apply ends_brace_app. unfold ends_brace, rstrip. rewrite rev_involutive. cbn [rev]. apply Forall_rev in F. induction F as [|x l Hx F IH]; cbn [List.app span]; [reflexivity|]. rewrite Hx. destruct (span is_space (l ++ [lb])). exact IH.
Qed.
Lemma rfind_pad a p : Forall (fun x => is_space x = true) p -> rfind [lb] (a ++ lb :: p) = Some a.
Proof.
  intros F. assert (rfind [lb] p = None) as K. { apply rfind_none. intros (x & y & ->). apply (spaces_no lb _ F eq_refl). apply in_or_app. right. now left. }
  induction a as [|x a IH]; cbn [List.app rfind]; [|now rewrite IH]. rewrite K. cbn [drop]. change (lb =a lb) with true. reflexivity.
Qed.
Lemma nth_done {A} (done : list A) x y l : nth_error (done ++ x :: y :: l) (List.length done) = Some x /\ nth_error (done ++ x :: y :: l) (S (List.length done)) = Some y.
Proof. split; [now rewrite nth_error_app2, Nat.sub_diag by lia|]. rewrite nth_error_app2 by lia. replace (S (List.length done) - List.length done)%nat with 1%nat by lia. reflexivity. Qed.
Lemma set_done {A} (done : list A) x y l : set_nth (List.length done) y (done ++ x :: l) = done ++ y :: l.
Proof. induction done as [|z done IH]; cbn; [reflexivity|]. now rewrite IH. Qed.
Section Loop.
Variable rec : str -> @res (list node).
Variable f : str -> list node.
Lemma step_decl done a d ds : decl_ok d -> rec (body d) = Ok (f (body d)) -> Forall decl_ok ds ->
  decl_step rec (S (List.length done)) (done ++ before_ a (d :: ds)) [] = Ok (done ++ S_ a :: N_ (Decl (pad d) (Cmd (dname d) []) (f (body d))) :: before_ (after d) ds, []).
Proof.
  intros (Hp & Nw & Fw & _ & _ & (c & r & Eb & Hc) & Ob & Oa) Er F. cbn [before_]. set (rest := before_ (body d ++ rb :: after d) ds).
  assert (exists q tl, rest = S_ (body d ++ rb :: after d ++ q) :: tl /\ before_ (after d) ds = S_ (after d ++ q) :: tl /\ (count lb q - count rb q <= 1)%Z) as (q & tl & E1 & E2 & Hq).
  { unfold rest. destruct ds as [|e ds]; cbn [before_]; [exists [], []; rewrite !app_nil_r; repeat split; cbn; lia|]. exists (lb :: pad e). eexists. split; [rewrite <- app_assoc; reflexivity|]. split; [reflexivity|]. inversion F as [|? ? (He & _) _]; subst. cbn [count]. change (lb =a lb) with true. change (lb =a rb) with false. rewrite !count_no by (apply spaces_no; auto). lia. }
  unfold decl_step. cbn [Nat.sub]. rewrite Nat.sub_0_r. destruct (nth_done done (S_ (a ++ lb :: pad d)) (N_ (Cmd (dname d) [])) rest) as (-> & ->). assert (nth_error (done ++ S_ (a ++ lb :: pad d) :: N_ (Cmd (dname d) []) :: rest) (S (S (List.length done))) = Some (S_ (body d ++ rb :: after d ++ q))) as ->. { rewrite nth_error_app2 by lia. replace (S (S (List.length done)) - List.length done)%nat with 2%nat by lia. cbn. now rewrite E1. }
  rewrite ends_brace_pad by exact Hp. assert (starts_space (body d ++ rb :: after d ++ q) = true) as -> by (rewrite Eb; exact Hc). cbn [is_command andb].
  assert (skipn (S (S (List.length done))) (done ++ S_ (a ++ lb :: pad d) :: N_ (Cmd (dname d) []) :: rest) = rest) as ->. { rewrite skipn_app. rewrite skipn_all2 by lia. replace (S (S (List.length done)) - List.length done)%nat with 2%nat by lia. reflexivity. }
  rewrite E1. cbn [gather]. assert (~ In lb (body d) /\ ~ In rb (body d) /\ ~ In lb (after d) /\ ~ In rb (after d)) as (B1 & B2 & B3 & B4) by (repeat split; apply ordinary_in; auto).
  assert ((1 <? Z.of_nat 1 + (count lb (body d ++ rb :: after d ++ q) - count rb (body d ++ rb :: after d ++ q)))%Z = false) as ->. { apply Z.ltb_ge. rewrite !count_app. cbn [count]. change (rb =a lb) with false. change (rb =a rb) with true. rewrite !count_app. rewrite (count_no lb (body d)), (count_no rb (body d)), (count_no lb (after d)), (count_no rb (after d)) by auto. change (Z.of_nat 1) with 1%Z. lia. }
  rewrite close_here by auto. cbn [List.app]. unfold make_decl. rewrite rfind_pad by exact Hp. assert (skipn (S (List.length a)) (a ++ lb :: pad d) = pad d) as ->. { rewrite skipn_app. rewrite skipn_all2 by lia. replace (S (List.length a) - List.length a)%nat with 1%nat by lia. reflexivity. }
  unfold decl_children. cbn [mapr]. rewrite Er. cbn [bindr List.concat]. rewrite app_nil_r. f_equal. f_equal. cbn [Nat.sub]. rewrite Nat.sub_0_r. unfold set_it.
  replace (done ++ S_ (a ++ lb :: pad d) :: N_ (Cmd (dname d) []) :: S_ (body d ++ rb :: after d ++ q) :: tl) with ((done ++ [S_ (a ++ lb :: pad d); N_ (Cmd (dname d) [])]) ++ S_ (body d ++ rb :: after d ++ q) :: tl) by assoc. replace (S (S (List.length done))) with (List.length (done ++ [S_ (a ++ lb :: pad d); N_ (Cmd (dname d) [])])) by (rewrite app_length; cbn; lia). rewrite set_done. rewrite <- app_assoc. cbn [List.app]. rewrite set_done.
  replace (done ++ S_ a :: N_ (Cmd (dname d) []) :: S_ (after d ++ q) :: tl) with ((done ++ [S_ a]) ++ N_ (Cmd (dname d) []) :: S_ (after d ++ q) :: tl) by assoc. replace (S (List.length done)) with (List.length (done ++ [S_ a])) by (rewrite app_length; cbn; lia). rewrite set_done. rewrite E2. assoc.
Qed.
Lemma loop_decls ds : Forall decl_ok ds -> Forall (fun d => rec (body d) = Ok (f (body d))) ds -> forall done a, decl_loop rec (seq (S (List.length done)) (2 * List.length ds - 1)) (done ++ before_ a ds) [] = Ok (done ++ after_ f a ds, []).
Proof.
  induction 1 as [|d ds Hd F IH]; intros R done a; [reflexivity|]. inversion R as [|? ? Rd R']; subst. replace (2 * List.length (d :: ds) - 1)%nat with (S (2 * List.length ds))%nat by (cbn [List.length]; lia). cbn [seq decl_loop]. rewrite step_decl by auto. cbn [bindr fst snd after_].
  destruct ds as [|e ds]; [cbn; now rewrite <- ?app_assoc|]. specialize (IH R' (done ++ [S_ a; N_ (Decl (pad d) (Cmd (dname d) []) (f (body d)))]) (after d)). rewrite app_length in IH. cbn [List.length] in IH. replace (2 * List.length (e :: ds))%nat with (S (2 * S (List.length ds) - 1))%nat by (cbn [List.length]; lia). cbn [seq decl_loop].
  assert (decl_step rec (S (S (List.length done))) (done ++ S_ a :: N_ (Decl (pad d) (Cmd (dname d) []) (f (body d))) :: before_ (after d) (e :: ds)) [] = Ok (done ++ S_ a :: N_ (Decl (pad d) (Cmd (dname d) []) (f (body d))) :: before_ (after d) (e :: ds), [])) as ->. { unfold decl_step. cbn [Nat.sub]. destruct (nth_done done (S_ a) (N_ (Decl (pad d) (Cmd (dname d) []) (f (body d)))) (before_ (after d) (e :: ds))) as (_ & ->). reflexivity. }
  cbn [bindr fst snd]. rewrite <- !app_assoc in IH. cbn [List.app] in IH. replace (List.length done + 2)%nat with (S (S (List.length done))) in IH by lia. exact IH.
Qed.
End Loop.
Lemma no_begin_decls ds : Forall decl_ok ds -> forall a, ~ In bs a -> ~ sub begin_ (a ++ texts ds).
Proof.
  induction 1 as [|d ds Hd F IH]; intros a Na (x & y & E).
  - change (texts []) with (@nil ascii) in E. rewrite app_nil_r in E. apply Na. rewrite E. apply in_or_app. right. now left.
  - destruct Hd as (Hp & Nw & Fw & _ & _ & (c & r & Eb & Hc) & Ob & Oa). change (texts (d :: ds)) with ((lb :: pad d ++ bs :: dname d ++ body d ++ rb :: after d) ++ texts ds) in E.
    replace (a ++ (lb :: pad d ++ bs :: dname d ++ body d ++ rb :: after d) ++ texts ds) with ((a ++ lb :: pad d) ++ bs :: dname d ++ body d ++ rb :: after d ++ texts ds) in E by assoc. change (x ++ begin_ ++ y) with (x ++ bs :: L "begin{" ++ y) in E.
    assert (~ In bs (a ++ lb :: pad d)) as N1. { intros H. apply in_app_or in H. destruct H as [H|[H|H]]; [contradiction|discriminate|revert H; now apply spaces_no]. } destruct (skip_to bs _ _ _ _ N1 E) as (z & _ & E2). destruct z as [|g z]; cbn [List.app] in E2.
    + injection E2 as E3. rewrite Eb in E3. cbn [List.app] in E3. assert (is_word c = false) as Wc by (clear -Hc; revert Hc; destruct c as [[] [] [] [] [] [] [] []]; vm_compute; congruence). apply (f_equal (span is_word)) in E3. rewrite (span_stop is_word (dname d) c _ Fw Wc) in E3. cbn in E3. injection E3 as _ -> _. discriminate.
    + injection E2 as <- E3. apply (IH (dname d ++ body d ++ rb :: after d)).
      * intros H2. apply in_app_or in H2. destruct H2 as [H2|H2]; [revert H2; now apply words_no|]. apply in_app_or in H2. destruct H2 as [H2|[H2|H2]]; [revert H2; apply ordinary_in; auto|discriminate|revert H2; apply ordinary_in; auto].
      * exists z, y. rewrite <- !app_assoc. cbn [List.app]. exact E3.
Qed.
Fixpoint items (a : str) (ds : list decl) : list item := match ds with [] => [IStr a] | d :: r => IStr (a ++ lb :: pad d) :: ICmd (dname d) [] [] :: items (body d ++ rb :: after d) r end.
Lemma items_spec ds : forall a, mapr build_piece (enc a ds) = Ok (items a ds) /\ map to_it (items a ds) = before_ a ds /\ List.length (before_ a ds) = S (2 * List.length ds).
Proof.
  induction ds as [|d ds IH]; intros a; [repeat split|]. destruct (IH (body d ++ rb :: after d)) as (E1 & E2 & E3). cbn [enc items before_ mapr build_piece make_args bindr map to_it]. rewrite E1, E2. repeat split. cbn [List.length]. rewrite E3. lia.
Qed.
Lemma after_print f ds : Forall (fun d => prints (f (body d)) = body d) ds -> forall a, prints (to_nodes (after_ f a ds)) = a ++ texts ds.
Proof.
  induction 1 as [|d ds Hd F IH]; intros a; rewrite to_nodes_print; cbn [after_ map it_text List.concat]; [reflexivity|]. rewrite <- to_nodes_print, IH. cbn [print]. fold (prints (f (body d))). rewrite Hd. change (texts (d :: ds)) with ((lb :: pad d ++ bs :: dname d ++ body d ++ rb :: after d) ++ texts ds). unfold print_cmd. cbn [map List.concat]. rewrite app_nil_r. assoc.
Qed.
(** a text with declarations, separated by ordinary text, parses and prints as itself *)
Theorem C57_declarations : forall a ds, ordinary a -> Forall decl_ok ds -> exists ns, text_to_nodes (a ++ List.concat (map decl_text ds)) = Ok ns /\ prints ns = a ++ List.concat (map decl_text ds).
Proof.
  intros a ds Oa F. fold (texts ds). set (t := a ++ texts ds). unfold text_to_nodes. cbn [parse].
  assert (exists f, Forall (fun d => parse (List.length t) (body d) = Ok (f (body d)) /\ prints (f (body d)) = body d) ds) as (f & Ff).
  { exists (fun s => match parse (List.length t) s with Ok ns => ns | _ => [] end). apply Forall_forall. intros d Hd. assert (ordinary (body d)) as Ob by (rewrite Forall_forall in F; destruct (F d Hd) as (_ & _ & _ & _ & _ & _ & Ob & _); exact Ob). assert (List.length (body d) < List.length t)%nat as Lb. { unfold t, texts. apply in_split in Hd. destruct Hd as (l1 & l2 & ->). rewrite map_app, concat_app. cbn [map List.concat]. unfold decl_text at 2. repeat (rewrite !app_length; cbn [List.length]). lia. } destruct (ordinary_parse _ _ Ob Lb) as (ns & -> & E). auto. }
  assert (~ In dollar t) as Nd. { unfold t, texts. intros H. apply in_app_or in H. destruct H as [H|H]; [revert H; apply ordinary_in; auto|]. apply in_concat in H. destruct H as (x & Hx & H). apply in_map_iff in Hx. destruct Hx as (d & <- & Hd). rewrite Forall_forall in F. destruct (F d Hd) as (Hp & Nw & Fw & _ & _ & _ & Ob & Oc). destruct H as [H|H]; [discriminate|]. apply in_app_or in H. destruct H as [H|[H|H]]; [revert H; now apply spaces_no|discriminate|]. apply in_app_or in H. destruct H as [H|H]; [revert H; now apply words_no|]. apply in_app_or in H. destruct H as [H|[H|H]]; [revert H; apply ordinary_in; auto|discriminate|revert H; apply ordinary_in; auto]. }
  assert (~ sub begin_ t) as Nb by (apply no_begin_decls; [exact F|apply ordinary_in; auto]).
  assert (env_split (List.length t) t = [CText t]) as ->. { destruct (List.length t); [reflexivity|]. cbn [env_split]. rewrite env_search_none; [reflexivity|exact Nd|]. intros r H. apply Nb. eapply sub_trans; [|exact H]. exists [], r. reflexivity. }
  assert (cmd_split (List.length t) [] t = enc a ds) as Ec. { unfold t at 2. rewrite cmd_split_skip; [|apply ordinary_in; auto|unfold t; rewrite app_length; lia]. apply cmd_split_enc; [exact F|apply ordinary_in; auto|]. unfold t. rewrite app_length. lia. }
  destruct (items_spec ds a) as (E1 & E2 & E3). cbn [mapr build_chunk]. rewrite Ec, E1. cbn [bindr List.concat]. rewrite app_nil_r. rewrite fix_lr_id.
  2:{ clear -F. revert a. induction F as [|d ds Hd F IH]; intros a; cbn [items]; [repeat constructor|]. constructor; [exact I|]. constructor; [|apply IH]. destruct Hd as (_ & _ & _ & Nl & Nr & _). split; (destruct (str_eqb _ _) eqn:Q; [|reflexivity]); exfalso; apply eqs in Q; contradiction. }
  cbn [bindr]. rewrite E2. unfold decls. rewrite E3. replace (S (2 * List.length ds) - 2)%nat with (2 * List.length ds - 1)%nat by lia. pose proof (loop_decls (parse (List.length t)) f ds F ltac:(eapply Forall_impl; [|exact Ff]; intros d (H & _); exact H) [] a) as Hl. cbn [List.length List.app] in Hl. rewrite Hl. cbn [bindr fst snd rev del_all]. eexists. split; [reflexivity|]. apply after_print. eapply Forall_impl; [|exact Ff]. intros d (_ & H). exact H.
Qed.
Example C57_declarations_met : decl_ok (D [] (L "it") (L " not so [1]") (L ", but ")) /\ ordinary (L "It is ").
Proof.
  assert (forall s, forallb (fun a => negb ((a =a bs) || (a =a lb) || (a =a rb) || (a =a dollar))) s = true -> ordinary s) as K. { intros s H. apply Forall_forall. intros a Ha. rewrite forallb_forall in H. specialize (H a Ha). apply negb_true_iff in H. rewrite !orb_false_iff in H. destruct H as (((H1 & H2) & H3) & H4). repeat split; apply neqa; assumption. }
  split; [|apply K; reflexivity]. repeat split; try discriminate; try (repeat constructor; fail); try (apply K; reflexivity). do 2 eexists. split; reflexivity.
Qed.
