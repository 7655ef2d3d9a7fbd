(** * PubProps: parsing LaTeX conserves the text (C57) *)
From Coq Require Import List Bool ZArith String Ascii Arith Lia.
From Verif Require Import PyBase PubModel.
Import ListNotations.

(** ** Specification *)
Definition sub (x t : str) : Prop := exists a b, t = a ++ x ++ b.
(** what a text must not contain for its conservation to be guaranteed *)
Inductive bad : str -> Prop :=
| BadDisplay : bad (L "$$")                                                                               (* display mathematics *)
| BadDecl ws w : Forall (fun a => is_space a = true) ws -> is_word w = true -> bad (lb :: ws ++ [bs; w])   (* {\name: declarations *)
| BadRight c : opener c = true -> bad (L "\right" ++ [c])                                                  (* \right{ and \right[ *)
| BadName n : ~ In rb n -> bad (begin_ ++ n ++ L "\end").                                                  (* an environment's name with \end in it *)
Definition clean (t : str) : Prop := forall x, bad x -> ~ sub x t.
(** the two kinds of brackets do not interleave: no { is followed by a ] with no } in between, no [ by a } with no ] in between *)
Definition tidy (t : str) : Prop := (forall x, ~ In rb x -> ~ sub (lb :: x ++ [rsq]) t) /\ (forall x, ~ In rsq x -> ~ sub (lsq :: x ++ [rb]) t).
(** equal but for the kind (square, curly) of some closing brackets *)
Definition closers_apart (a b : str) : Prop := Forall2 (fun x y => x = y \/ (closer x = true /\ closer y = true)) a b.

Lemma sub_refl x : sub x x. Proof. exists [], []. now rewrite app_nil_r. Qed.
Lemma sub_trans x y z : sub x y -> sub y z -> sub x z.
Proof. intros (a & b & ->) (c & d & ->). exists (c ++ a), (b ++ d). now rewrite !app_assoc. Qed.
Lemma clean_sub t x : clean t -> sub x t -> clean x.
Proof. intros C S y B Sy. apply (C y B). eapply sub_trans; eauto. Qed.
Lemma eqa a b : (a =a b) = true <-> a = b. Proof. apply Ascii.eqb_eq. Qed.
Lemma neqa a b : (a =a b) = false <-> a <> b. Proof. apply Ascii.eqb_neq. Qed.
Lemma eqs a b : str_eqb a b = true <-> a = b.
Proof. revert b. induction a as [|x a IH]; intros [|y b]; cbn [str_eqb]; split; try discriminate; auto. - intros H. apply andb_true_iff in H. destruct H as (H1 & H2). apply eqa in H1. apply IH in H2. congruence. - intros [= <- <-]. apply andb_true_iff. split; [now apply eqa|now apply IH]. Qed.

Ltac assoc := repeat (progress (cbn [List.app]; rewrite <- ?app_assoc)); reflexivity.
(** ** searching *)
Lemma drop_spec p s r : drop p s = Some r <-> s = p ++ r.
Proof.
  revert s. induction p as [|a p IH]; intros s; cbn [drop List.app]; [split; congruence|]. destruct s as [|b s]; [split; discriminate|]. destruct (a =a b) eqn:E; [apply eqa in E; subst b; rewrite IH; split; congruence|]. apply neqa in E. split; [discriminate|congruence].
Qed.
Lemma drop_app p r : drop p (p ++ r) = Some r. Proof. now apply drop_spec. Qed.
Lemma find_spec p s x r : find p s = Some (x, r) -> s = x ++ p ++ r.
Proof.
  revert x. induction s as [|a s IH]; intros x; cbn [find].
  - destruct (drop p []) as [q|] eqn:E; [|discriminate]. intros [= <- <-]. now apply drop_spec in E.
  - destruct (drop p (a :: s)) as [q|] eqn:E; [intros [= <- <-]; now apply drop_spec in E|]. destruct (find p s) as [[y q]|]; [|discriminate]. intros [= <- <-]. cbn. now rewrite (IH y eq_refl).
Qed.
Lemma find_complete p a b : exists x r, find p (a ++ p ++ b) = Some (x, r).
Proof.
  induction a as [|c a (x & r & IH)]; cbn [List.app].
  - destruct p as [|d p]; cbn [List.app]; [destruct b; cbn; eauto|]. cbn [find]. change (drop (d :: p) (d :: p ++ b)) with (drop (d :: p) ((d :: p) ++ b)). rewrite drop_app. eauto.
  - cbn [find]. destruct (drop p (c :: a ++ p ++ b)); [eauto|]. rewrite IH. eauto.
Qed.
Lemma find_none_sub p s : find p s = None -> ~ sub p s.
Proof. intros E (a & b & ->). destruct (find_complete p a b) as (x & r & Q). congruence. Qed.
Lemma find_first c s x r : find [c] s = Some (x, r) -> s = x ++ c :: r /\ ~ In c x.
Proof.
  intros E. split; [now apply find_spec in E|]. revert x E. induction s as [|a s IH]; intros x; cbn [find drop]; [discriminate|]. destruct (c =a a) eqn:Q; [intros [= <- <-] []|]. destruct (find [c] s) as [[y q]|]; [|discriminate]. intros [= <- <-] [->|H]; [apply neqa in Q; congruence|]. now apply (IH y eq_refl).
Qed.
Lemma find_here c x r : ~ In c x -> find [c] (x ++ c :: r) = Some (x, r).
Proof.
  induction x as [|a x IH]; intros N; cbn [List.app find drop]; [now rewrite Ascii.eqb_refl|]. assert (c =a a = false) as -> by (apply neqa; intros ->; apply N; now left). rewrite IH by (intros H; apply N; now right). reflexivity.
Qed.
Lemma rfind_none p s : ~ sub p s -> rfind p s = None.
Proof.
  induction s as [|a s IH]; intros N; cbn [rfind].
  - destruct (drop p []) as [q|] eqn:E; [|reflexivity]. exfalso. apply N. apply drop_spec in E. exists [], q. exact E.
  - rewrite IH; [|intros (x & y & ->); apply N; exists (a :: x), y; reflexivity]. destruct (drop p (a :: s)) as [q|] eqn:E; [|reflexivity]. exfalso. apply N. apply drop_spec in E. exists [], q. exact E.
Qed.
Lemma rfind_last c p x y : ~ sub (c :: p) (p ++ y) -> rfind (c :: p) (x ++ c :: p ++ y) = Some x.
Proof.
  intros N. induction x as [|a x IH]; cbn [List.app rfind]; [|now rewrite IH]. rewrite (rfind_none _ _ N). change (c :: p ++ y) with ((c :: p) ++ y). now rewrite drop_app.
Qed.
Lemma span_spec f s x y : span f s = (x, y) -> s = x ++ y /\ Forall (fun a => f a = true) x /\ (match y with [] => True | a :: _ => f a = false end).
Proof.
  revert x y. induction s as [|a s IH]; intros x y; cbn [span]; [intros [= <- <-]; repeat split; constructor|]. destruct (f a) eqn:E; [|intros [= <- <-]; repeat split; auto]. destruct (span f s) as [u v] eqn:Q. intros [= <- <-]. destruct (IH u v eq_refl) as (-> & F & H). repeat split; auto.
Qed.

(** ** environments and mathematics *)
Lemma env_from_spec s : forall name nm c r, env_from name s = Some (nm, c, r) -> exists n2, nm = name ++ n2 /\ s = n2 ++ [rb] ++ c ++ end_ ++ nm ++ [rb] ++ r /\ ~ In rb n2.
Proof.
  induction s as [|a s IH]; intros name nm c r; cbn [env_from]; [discriminate|]. destruct (a =a rb) eqn:E.
  - apply eqa in E. subst a. destruct (find (end_ ++ name ++ [rb]) s) as [[x y]|] eqn:Q.
    + intros [= <- <- <-]. apply find_spec in Q. exists []. rewrite app_nil_r. repeat split; [|intros []]. rewrite Q. cbn [List.app]. now rewrite <- !app_assoc.
    + intros H. destruct (IH _ _ _ _ H) as (n2 & -> & Hs & Hn). exfalso. apply (find_none_sub _ _ Q). exists (n2 ++ [rb] ++ c), (n2 ++ [rb] ++ r). rewrite Hs. now rewrite <- !app_assoc.
  - intros H. destruct (IH _ _ _ _ H) as (n2 & -> & Hs & Hn). exists (a :: n2). rewrite <- app_assoc. cbn [List.app]. repeat split; [|intros [->|Q]; [apply neqa in E; congruence|contradiction]]. f_equal. rewrite Hs at 1. now rewrite <- !app_assoc.
Qed.
Definition env_form (m : str) : Prop := exists name c, m = begin_ ++ name ++ [rb] ++ c ++ end_ ++ name ++ [rb] /\ ~ In rb name.
Definition math_form (m : str) : Prop := exists x, x <> [] /\ ~ In dollar x /\ m = dollar :: x ++ [dollar].
Lemma math_at_spec s m r : math_at s = Some (m, r) -> ~ sub (L "$$") s -> s = m ++ r /\ math_form m.
Proof.
  intros E N. unfold math_at in E. destruct s as [|a s]; [discriminate|]. destruct (a =a dollar) eqn:Ea; [|discriminate]. apply eqa in Ea. subst a. destruct s as [|b s]; [discriminate|]. destruct (b =a dollar) eqn:Eb.
  - apply eqa in Eb. subst b. exfalso. apply N. exists [], s. reflexivity.
  - apply neqa in Eb. destruct (find [dollar] (b :: s)) as [[x q]|] eqn:F; [|discriminate]. apply find_first in F. destruct F as (F & Nx).
    assert (x <> []) as X0 by (intros ->; cbn in F; congruence). destruct q as [|d q].
    + injection E as <- <-. split; [rewrite F; cbn; now rewrite <- app_assoc|]. now exists x.
    + destruct (d =a dollar) eqn:Ed. { apply eqa in Ed. subst d. exfalso. apply N. rewrite F. exists (dollar :: x), q. reflexivity. }
      injection E as <- <-. split; [rewrite F; cbn; now rewrite <- app_assoc|]. now exists x.
Qed.
Lemma env_at_spec s e m r : env_at s = Some (e, m, r) -> ~ sub (L "$$") s -> s = m ++ r /\ (if e then env_form m else math_form m).
Proof.
  unfold env_at. intros E N. destruct (drop begin_ s) as [q|] eqn:D.
  - destruct (env_from [] q) as [[[name c] rest]|] eqn:F; [|discriminate]. injection E as <- <- <-. apply drop_spec in D. destruct (env_from_spec _ _ _ _ _ F) as (n2 & -> & -> & Hn). cbn [List.app] in *. split; [rewrite D; unfold begin_, end_; cbn [L list_ascii_of_string]; assoc|]. exists n2, c. split; [reflexivity|auto].
  - destruct (math_at s) as [[m' r']|] eqn:M; [|discriminate]. injection E as <- <- <-. now apply math_at_spec.
Qed.
Lemma env_search_spec s : forall acc t e m r, env_search acc s = Some (t, (e, m, r)) -> ~ sub (L "$$") s -> acc ++ s = t ++ m ++ r /\ (if e then env_form m else math_form m).
Proof.
  induction s as [|a s IH]; intros acc t e m r; cbn [env_search].
  - destruct (env_at []) as [q|] eqn:E; [|discriminate]. intros [= <- ->] N. destruct (env_at_spec _ _ _ _ E N) as (H & F). split; [now rewrite H at 1|exact F].
  - destruct (env_at (a :: s)) as [q|] eqn:E.
    + intros [= <- ->] N. destruct (env_at_spec _ _ _ _ E N) as (H & F). split; [now rewrite H at 1|exact F].
    + intros H N. destruct (IH _ _ _ _ _ H) as (Q & F); [intros (x & y & ->); apply N; exists (a :: x), y; reflexivity|]. rewrite <- app_assoc in Q. auto.
Qed.
Definition chunk_text (c : chunk) : str := match c with CText s => s | CEnv m => m | CMath m => m end.
Definition chunk_ok (c : chunk) : Prop := match c with CText s => True | CEnv m => env_form m | CMath m => math_form m end.
Lemma env_split_spec n : forall s, ~ sub (L "$$") s -> s = List.concat (map chunk_text (env_split n s)) /\ Forall chunk_ok (env_split n s).
Proof.
  induction n as [|n IH]; intros s N; cbn [env_split].
  - cbn. rewrite app_nil_r. repeat constructor.
  - destruct (env_search [] s) as [[t [[e m] r]]|] eqn:E; [|cbn; rewrite app_nil_r; repeat constructor]. destruct (env_search_spec _ _ _ _ _ _ E N) as (H & F). cbn [List.app] in H. assert (~ sub (L "$$") r) as Nr. { intros (x & y & Hr). apply N. exists (t ++ m ++ x), y. rewrite H, Hr. now rewrite <- !app_assoc. }
    destruct (IH r Nr) as (H2 & F2). cbn [map List.concat chunk_text]. split.
    + rewrite H. destruct e; cbn [chunk_text]; congruence.
    + constructor; [exact I|]. constructor; [destruct e; exact F|exact F2].
Qed.

(** ** commands *)
Lemma upto_spec c s x y : upto c s = Some (x, y) -> s = x ++ c :: y /\ ~ In c x.
Proof.
  revert x. induction s as [|a s IH]; intros x; cbn [upto]; [discriminate|]. destruct (a =a c) eqn:E; [apply eqa in E; subst a; intros [= <- <-]; split; [reflexivity|intros []]|]. destruct (a =a nl); [discriminate|]. destruct (upto c s) as [[u v]|]; [|discriminate]. intros [= <- <-]. destruct (IH u eq_refl) as (-> & N). split; [reflexivity|]. intros [->|H]; [apply neqa in E; congruence|contradiction].
Qed.
(** the shape of a matched argument text *)
Inductive args_form : str -> Prop :=
| AFnil : args_form []
| AFreq x z : ~ In rb x -> args_form z -> args_form (lb :: x ++ rb :: z)
| AFopt x z : ~ In rsq x -> args_form z -> args_form (lsq :: x ++ rsq :: z).
Lemma blocks_spec n : forall s ar r, blocks n s = (ar, r) -> s = ar ++ r /\ args_form ar.
Proof.
  induction n as [|n IH]; intros s ar r; cbn [blocks]; [intros [= <- <-]; split; [reflexivity|constructor]|]. destruct s as [|a s]; [intros [= <- <-]; split; [reflexivity|constructor]|]. destruct (a =a lb) eqn:E1; [|destruct (a =a lsq) eqn:E2].
  - apply eqa in E1. subst a. destruct (upto rb s) as [[x y]|] eqn:U; [|intros [= <- <-]; split; [reflexivity|constructor]]. destruct (blocks n y) as [z w] eqn:B. intros [= <- <-]. apply upto_spec in U. destruct U as (-> & N). destruct (IH _ _ _ B) as (-> & F). split; [cbn; now rewrite <- app_assoc|now constructor].
  - apply eqa in E2. subst a. destruct (upto rsq s) as [[x y]|] eqn:U; [|intros [= <- <-]; split; [reflexivity|constructor]]. destruct (blocks n y) as [z w] eqn:B. intros [= <- <-]. apply upto_spec in U. destruct U as (-> & N). destruct (IH _ _ _ B) as (-> & F). split; [cbn; now rewrite <- app_assoc|now constructor].
  - intros [= <- <-]. split; [reflexivity|constructor].
Qed.
Definition name_ok (w : str) : Prop := match w with a :: _ => is_word a = true | [] => False end.
Lemma cmd_at_spec s w ar r : cmd_at s = Some (w, ar, r) -> s = w ++ ar ++ r /\ name_ok w /\ args_form ar.
Proof.
  unfold cmd_at. destruct (span is_word s) as [u q] eqn:E. apply span_spec in E. destruct E as (-> & F & _). destruct u as [|a u]; [discriminate|]. destruct q as [|c q]; [discriminate|]. assert (is_word a = true) as Ha by now inversion F.
  destruct (c =a star) eqn:Ec.
  - apply eqa in Ec. subst c. destruct (blocks (List.length q) q) as [z v] eqn:B. apply blocks_spec in B. destruct B as (B & A). destruct z as [|b z].
    + destruct q as [|d q]; [intros [= <- <- <-]; repeat split; auto; constructor|]. destruct (is_word d); intros [= <- <- <-]; repeat split; auto; try constructor. cbn. rewrite <- app_assoc. reflexivity.
    + intros [= <- <- <-]. rewrite B. repeat split; auto. cbn. rewrite <- !app_assoc. reflexivity.
  - destruct (blocks (List.length (c :: q)) (c :: q)) as [z v] eqn:B. apply blocks_spec in B. destruct B as (B & A). intros [= <- <- <-]. rewrite B. auto.
Qed.
Definition piece_text (p : piece) : str := match p with PStr s => s | PCmd w ar => bs :: w ++ ar end.
Definition piece_ok (p : piece) : Prop := match p with PStr _ => True | PCmd w ar => name_ok w /\ args_form ar end.
Lemma cmd_split_spec n : forall acc s, List.concat (map piece_text (cmd_split n acc s)) = acc ++ s /\ Forall piece_ok (cmd_split n acc s).
Proof.
  induction n as [|n IH]; intros acc s; cbn [cmd_split]; [cbn; rewrite app_nil_r; repeat constructor|]. destruct s as [|a s]; [cbn; rewrite !app_nil_r; repeat constructor|]. assert (List.concat (map piece_text (cmd_split n (acc ++ [a]) s)) = acc ++ a :: s /\ Forall piece_ok (cmd_split n (acc ++ [a]) s)) as K by (destruct (IH (acc ++ [a]) s) as (-> & F); rewrite <- app_assoc; auto).
  destruct (a =a bs) eqn:E; [|exact K]. apply eqa in E. subst a. destruct (cmd_at s) as [[[w ar] r]|] eqn:C; [|exact K]. apply cmd_at_spec in C. destruct C as (-> & Nw & Fa). destruct (IH [] r) as (E2 & F2). cbn [map List.concat piece_text]. split; [rewrite E2; cbn; now rewrite <- !app_assoc|]. repeat (constructor; cbn; auto).
Qed.
(** a command is preceded by a string that does not end in a brace *)
Fixpoint adjP (l : list piece) : Prop := match l with PStr p :: ((PCmd _ _ :: _) as r) => ends_brace p = false /\ adjP r | _ :: r => adjP r | [] => True end.
Lemma ends_brace_spec s : ends_brace s = true -> exists x ws, s = x ++ lb :: ws /\ Forall (fun a => is_space a = true) ws.
Proof.
  unfold ends_brace, rstrip. rewrite rev_involutive. destruct (span is_space (rev s)) as [u v] eqn:E. apply span_spec in E. destruct E as (E & F & _). cbn [snd]. destruct v as [|a v]; [discriminate|]. intros H. apply eqa in H. subst a. exists (rev v), (rev u). split; [|now apply Forall_rev].
  rewrite <- (rev_involutive s), E. rewrite rev_app_distr. cbn [rev]. now rewrite <- app_assoc.
Qed.
Lemma ends_brace_app x s : ends_brace s = true -> ends_brace (x ++ s) = true.
Proof.
  intros H. destruct (ends_brace_spec _ H) as (y & ws & -> & F). clear H. unfold ends_brace, rstrip. rewrite rev_involutive. rewrite !rev_app_distr. cbn [rev]. rewrite <- !app_assoc. cbn [List.app]. apply Forall_rev in F. induction F as [|a l Ha F IH]; cbn [List.app span]; [reflexivity|]. rewrite Ha. destruct (span is_space (l ++ lb :: rev y ++ rev x)) as [u v] eqn:Q. cbn [snd] in *. exact IH.
Qed.
Lemma cmd_split_adj n : forall acc s, clean (acc ++ s) -> adjP (cmd_split n acc s).
Proof.
  induction n as [|n IH]; intros acc s C; cbn [cmd_split]; [exact I|]. destruct s as [|a s]; [exact I|]. assert (adjP (cmd_split n (acc ++ [a]) s)) as K by (apply IH; now rewrite <- app_assoc).
  destruct (a =a bs) eqn:E; [|exact K]. apply eqa in E. subst a. destruct (cmd_at s) as [[[w ar] r]|] eqn:Q; [|exact K]. apply cmd_at_spec in Q. destruct Q as (-> & Nw & Fa).
  assert (adjP (cmd_split n [] r)) as K2 by (apply IH; eapply clean_sub; [exact C|]; exists (acc ++ bs :: w ++ ar), []; rewrite app_nil_r; assoc).
  cbn [adjP]. split; [|exact K2]. destruct (ends_brace acc) eqn:B; [|reflexivity]. exfalso. destruct (ends_brace_spec _ B) as (x & ws & -> & F). destruct w as [|b w]; [contradiction|]. apply (C _ (BadDecl ws b F Nw)). exists x, (w ++ ar ++ r). assoc.
Qed.

(** ** arguments *)
Lemma mapr_ok {A B} (f : A -> @res B) l q : mapr f l = Ok q <-> Forall2 (fun a b => f a = Ok b) l q.
Proof.
  revert q. induction l as [|a l IH]; intros q; cbn [mapr].
  - split; [intros [= <-]; constructor|intros H; inversion H; reflexivity].
  - destruct (f a) eqn:E; [|split; [discriminate|intros H; inversion H; congruence]|split; [discriminate|intros H; inversion H; congruence]].
    destruct (mapr f l) eqn:M.
    + split; [intros [= <-]; constructor; [exact E|now apply IH]|]. intros H. inversion H; subst. match goal with K : Forall2 _ l _ |- _ => apply IH in K; injection K as -> end. match goal with K : f a = Ok ?y |- _ => rewrite E in K; injection K as -> end. reflexivity.
    + split; [discriminate|]. intros H. inversion H; subst. match goal with K : Forall2 _ l _ |- _ => apply IH in K; discriminate end.
    + split; [discriminate|]. intros H. inversion H; subst. match goal with K : Forall2 _ l _ |- _ => apply IH in K; discriminate end.
Qed.
(** the text is the pieces with closing brackets in between *)
Fixpoint weave (ps : list str) (cs : str) : str := match ps, cs with p :: ((_ :: _) as r), c :: cs => p ++ c :: weave r cs | p :: _, _ => p | [], _ => [] end.
Lemma split_args_nonempty s : forall cur, split_args cur s <> [].
Proof. induction s as [|a s IH]; intros cur; cbn [split_args]; [discriminate|]. destruct (closer a && sep_after s); [discriminate|apply IH]. Qed.
Lemma split_args_spec s : forall cur, exists cs, Forall (fun c => closer c = true /\ In c s) cs /\ List.length (split_args cur s) = S (List.length cs) /\ cur ++ s = weave (split_args cur s) cs.
Proof.
  induction s as [|a s IH]; intros cur; cbn [split_args].
  - exists []. repeat split; [constructor|]. cbn. now rewrite app_nil_r.
  - destruct (closer a && sep_after s) eqn:E.
    + destruct (IH []) as (cs & F & Ln & W). exists (a :: cs). apply andb_true_iff in E. destruct E as (E & _). split; [constructor; [split; [auto|now left]|eapply Forall_impl; [|exact F]; intros c (H1 & H2); split; [auto|now right]]|]. split; [cbn; lia|]. pose proof (split_args_nonempty s []) as Ne. destruct (split_args [] s) as [|p ps] eqn:Q; [contradiction|]. cbn [weave]. cbn [List.app] in W. now rewrite W.
    + destruct (IH (cur ++ [a])) as (cs & F & Ln & W). exists cs. split; [eapply Forall_impl; [|exact F]; intros c (H1 & H2); split; [auto|now right]|]. split; [auto|]. rewrite <- W. now rewrite <- app_assoc.
Qed.
Lemma closers_refl s : closers_apart s s. Proof. induction s; constructor; auto. Qed.
Lemma make_arg_print p a : make_arg p = Ok a -> exists c, closer c = true /\ print_arg a = p ++ [c] /\ (c = rb <-> match p with x :: _ => x = lb | [] => False end).
Proof.
  unfold make_arg. destruct p as [|x p]; [discriminate|]. destruct (x =a lb) eqn:E1; [apply eqa in E1; subst x; intros [= <-]; exists rb; repeat split; auto|]. destruct (x =a lsq) eqn:E2; [|discriminate]. apply eqa in E2. subst x. intros [= <-]. exists rsq. repeat split; auto; intros H; discriminate.
Qed.
Lemma weave_closers ps cs args : List.length ps = List.length cs -> Forall (fun c => closer c = true) cs -> Forall2 (fun p a => make_arg p = Ok a) ps args -> closers_apart (List.concat (map print_arg args)) (weave (ps ++ [[]]) cs).
Proof.
  revert cs args. induction ps as [|p ps IH]; intros cs args Ln F Fa; destruct cs as [|c cs]; try discriminate; inversion Fa as [|? ag ? args' Ha Fa']; subst; [constructor|]. cbn [map List.concat List.app weave]. inversion F as [|? ? Hc F']; subst. destruct (make_arg_print _ _ Ha) as (d & Cd & -> & _).
  specialize (IH cs args' ltac:(cbn in Ln; lia) F' Fa'). destruct (ps ++ [[]]) as [|q qs] eqn:Q; [destruct ps; discriminate|]. rewrite <- app_assoc. apply Forall2_app; [apply closers_refl|]. cbn [List.app]. constructor; [right; auto|]. exact IH.
Qed.
Lemma make_args_spec ar args : make_args ar = Ok args -> ar = [] /\ args = [] \/ (ar <> [] /\ args <> [] /\ exists ps, split_args [] ar = ps ++ [[]] /\ Forall2 (fun p a => make_arg p = Ok a) ps args).
Proof.
  unfold make_args. destruct ar as [|a ar]; [intros [= <-]; auto|]. intros H. right. split; [discriminate|]. pose proof (split_args_nonempty (a :: ar) []) as Ne. destruct (split_args_spec (a :: ar) []) as (cs & _ & Ln & W). set (l := split_args [] (a :: ar)) in *. clearbody l. assert (l = removelast l ++ [last l []]) as E by (apply app_removelast_last; exact Ne). destruct (last l []) as [|b r]; [|discriminate]. apply mapr_ok in H.
  split; [|exists (removelast l); auto]. intros ->. assert (removelast l = []) as Hn by (inversion H; reflexivity). rewrite Hn in E. cbn in E. rewrite E in Ln, W. cbn in Ln. destruct cs; [discriminate W|discriminate Ln].
Qed.
Lemma make_args_closers ar args : make_args ar = Ok args -> closers_apart (List.concat (map print_arg args)) ar.
Proof.
  intros H. destruct (make_args_spec _ _ H) as [(-> & ->)|(_ & _ & ps & E & F)]; [constructor|]. destruct (split_args_spec ar []) as (cs & Fc & Ln & W). rewrite E in Ln, W. rewrite app_length in Ln. cbn in Ln, W. rewrite W. apply weave_closers; [lia| |exact F]. eapply Forall_impl; [|exact Fc]. now intros c (H1 & _).
Qed.
(** when the two kinds of brackets do not interleave the arguments are recovered exactly *)
Lemma split_args_inner x : forall cur r, ~ In rb x -> ~ In rsq x -> split_args cur (x ++ r) = split_args (cur ++ x) r.
Proof.
  induction x as [|a x IH]; intros cur r N1 N2; cbn [List.app split_args]; [now rewrite app_nil_r|]. assert (closer a = false) as ->. { unfold closer. apply orb_false_iff. split; apply neqa; intros ->; [apply N1|apply N2]; now left. } cbn [andb]. rewrite IH; [now rewrite <- app_assoc|intros H; apply N1; now right|intros H; apply N2; now right].
Qed.
Lemma tidy_sub t x : tidy t -> sub x t -> tidy x.
Proof. intros (T1 & T2) S. split; intros y N H; [apply (T1 y N)|apply (T2 y N)]; eapply sub_trans; eauto. Qed.
Definition open_ (a : arg) : str := (if required a then lb else lsq) :: atext a.
Lemma args_form_pieces ar : args_form ar -> tidy ar -> exists qs, split_args [] ar = map open_ qs ++ [[]] /\ ar = List.concat (map print_arg qs) /\ Forall (fun a => required a = true -> ~ In rb (atext a)) qs.
Proof.
  induction 1 as [|x z Nx A IH|x z Nx A IH]; intros T.
  - exists []. repeat split. constructor.
  - assert (tidy z) as Tz by (eapply tidy_sub; [exact T|]; exists (lb :: x ++ [rb]), []; rewrite app_nil_r; assoc). assert (~ In rsq x) as N1. { intros Q. apply in_split in Q. destruct Q as (u & v & ->). apply (proj1 T u); [intros Q; apply Nx; apply in_or_app; now left|]. exists [], (v ++ rb :: z). assoc. }
    destruct (IH Tz) as (qs & E & Ez & Fq). exists (Arg true x :: qs). cbn [map List.concat print_arg required atext open_]. unfold open_ at 1. cbn [required atext]. split; [|split; [rewrite Ez; assoc|constructor; [cbn [required atext]; auto; discriminate|exact Fq]]].
    change (lb :: x ++ rb :: z) with ((lb :: x) ++ rb :: z). rewrite split_args_inner; [|intros [Q|Q]; [discriminate|contradiction]|intros [Q|Q]; [discriminate|contradiction]]. cbn [List.app split_args]. assert (sep_after z = true) as ->. { rewrite Ez. destruct qs as [|[[|] y] qs]; reflexivity. } change (closer rb) with true. cbn [andb]. now rewrite E.
  - assert (tidy z) as Tz by (eapply tidy_sub; [exact T|]; exists (lsq :: x ++ [rsq]), []; rewrite app_nil_r; assoc). assert (~ In rb x) as N1. { intros Q. apply in_split in Q. destruct Q as (u & v & ->). apply (proj2 T u); [intros Q; apply Nx; apply in_or_app; now left|]. exists [], (v ++ rsq :: z). assoc. }
    destruct (IH Tz) as (qs & E & Ez & Fq). exists (Arg false x :: qs). cbn [map List.concat print_arg required atext open_]. unfold open_ at 1. cbn [required atext]. split; [|split; [rewrite Ez; assoc|constructor; [cbn [required atext]; auto; discriminate|exact Fq]]].
    change (lsq :: x ++ rsq :: z) with ((lsq :: x) ++ rsq :: z). rewrite split_args_inner; [|intros [Q|Q]; [discriminate|contradiction]|intros [Q|Q]; [discriminate|contradiction]]. cbn [List.app split_args]. assert (sep_after z = true) as ->. { rewrite Ez. destruct qs as [|[[|] y] qs]; reflexivity. } change (closer rsq) with true. cbn [andb]. now rewrite E.
Qed.
Lemma make_args_tidy ar : args_form ar -> tidy ar -> exists args, make_args ar = Ok args /\ List.concat (map print_arg args) = ar /\ Forall (fun a => required a = true -> ~ In rb (atext a)) args.
Proof.
  intros A T. destruct (args_form_pieces _ A T) as (qs & E & E3 & Fq). exists qs. split; [|split; [now rewrite <- E3|exact Fq]]. unfold make_args. destruct ar as [|a ar]. { destruct qs as [|[[|] y] qs]; [reflexivity|discriminate E3|discriminate E3]. } rewrite E, last_last, removelast_last. apply mapr_ok. clear. induction qs as [|[[|] y] qs IH]; cbn [map]; constructor; auto.
Qed.
Lemma make_args_exact ar args : args_form ar -> tidy ar -> make_args ar = Ok args -> List.concat (map print_arg args) = ar.
Proof. intros A T H. destruct (make_args_tidy _ A T) as (q & E & E2 & _). congruence. Qed.
Lemma make_args_total ar : args_form ar -> tidy ar -> exists args, make_args ar = Ok args.
Proof. intros A T. destruct (make_args_tidy _ A T) as (q & E & E2). eauto. Qed.

(** ** nodes *)
Lemma split_on_join c s : join [c] (split_on c s) = s /\ split_on c s <> [].
Proof.
  induction s as [|a s (IH & Ne)]; cbn [split_on]; [split; [reflexivity|discriminate]|]. destruct (a =a c) eqn:E.
  - apply eqa in E. subst a. destruct (split_on c s) as [|x l]; [contradiction|]. split; [cbn [join List.app] in *; now rewrite IH|discriminate].
  - destruct (split_on c s) as [|x l]; [contradiction|]. split; [|discriminate]. rewrite <- IH. cbn [join]. destruct l; reflexivity.
Qed.
Lemma prints_app a b : prints (a ++ b) = prints a ++ prints b. Proof. unfold prints. now rewrite map_app, concat_app. Qed.
Lemma text_nodes_print s : prints (text_nodes s) = s.
Proof.
  unfold text_nodes. destruct (split_on_join nl s) as (J & Ne). destruct (split_on nl s) as [|x l]; [contradiction|]. rewrite <- J. clear. revert x. induction l as [|y l IH]; intros x; [cbn; now rewrite app_nil_r|]. specialize (IH y). cbn [flat_map]. unfold prints in *. cbn [map List.concat List.app print] in *. rewrite IH. reflexivity.
Qed.
Definition it_text (i : it) : str := match i with S_ s => s | N_ n => print n end.
Lemma to_nodes_print l : prints (to_nodes l) = List.concat (map it_text l).
Proof.
  unfold to_nodes. induction l as [|i l IH]; [reflexivity|]. cbn [flat_map map List.concat]. rewrite prints_app, IH. f_equal. destruct i; [apply text_nodes_print|]. unfold prints. cbn. now rewrite app_nil_r.
Qed.

(** ** one level of parsing *)
Section Level.
Variable Q : str -> str -> Prop.
Hypothesis Qrefl : forall s, Q s s.
Hypothesis Qapp : forall a b c d, Q a b -> Q c d -> Q (a ++ c) (b ++ d).
Variable P : str -> Prop.
Hypothesis Psub : forall x t, P t -> sub x t -> P x.
Hypothesis Qargs : forall ar args, P ar -> args_form ar -> make_args ar = Ok args -> Q (List.concat (map print_arg args)) ar.
Variable rec : str -> @res (list node).
Hypothesis Hrec : forall t ns, clean t -> P t -> rec t = Ok ns -> Q (prints ns) t.
(** the source text of an item *)
Definition src (i : item) (t : str) : Prop := match i with IStr s => t = s | ICmd w orig args => t = bs :: w ++ orig /\ name_ok w /\ args_form orig /\ make_args orig = Ok args | INode n => Q (print n) t end.
Definition good_src (l : list item) (t : str) : Prop := exists ts, Forall2 src l ts /\ t = List.concat ts.
Fixpoint adjI (l : list item) : Prop :=
  match l with
  | IStr p :: r => (match r with ICmd _ _ _ :: _ => ends_brace p = false | INode n :: _ => is_command n = true -> ends_brace p = false | _ => True end) /\ adjI r
  | _ :: r => adjI r
  | [] => True
  end.
Lemma good_nil : good_src [] []. Proof. exists []. split; [constructor|reflexivity]. Qed.
Lemma good_cons i l t ts : src i t -> good_src l ts -> good_src (i :: l) (t ++ ts). Proof. intros H (us & F & ->). exists (t :: us). split; [now constructor|reflexivity]. Qed.
Lemma good_cons_inv i l t : good_src (i :: l) t -> exists a b, t = a ++ b /\ src i a /\ good_src l b. Proof. intros (us & F & ->). inversion F; subst. eexists _, _. split; [reflexivity|]. split; [eassumption|]. eexists. split; [eassumption|reflexivity]. Qed.
Lemma good_app l1 l2 t1 t2 : good_src l1 t1 -> good_src l2 t2 -> good_src (l1 ++ l2) (t1 ++ t2).
Proof. intros (a & F & ->) (b & G & ->). exists (a ++ b). split; [now apply Forall2_app|]. now rewrite concat_app. Qed.
Lemma build_piece_src p i : piece_ok p -> build_piece p = Ok i -> src i (piece_text p) /\ (match p, i with PStr s, IStr s' => s = s' | PCmd _ _, ICmd _ _ _ => True | _, _ => False end).
Proof.
  destruct p as [s|w ar]; cbn [build_piece piece_ok piece_text]; [intros _ [= <-]; split; reflexivity|]. intros (Nw & A). destruct (make_args ar) as [args|e|] eqn:E; cbn [bindr]; try discriminate. intros [= <-]. split; [cbn; auto|exact I].
Qed.
Lemma build_pieces ps is : Forall piece_ok ps -> adjP ps -> mapr build_piece ps = Ok is -> good_src is (List.concat (map piece_text ps)) /\ adjI is /\ (match is with ICmd _ _ _ :: _ => match ps with PCmd _ _ :: _ => True | _ => False end | INode _ :: _ => False | _ => True end).
Proof.
  intros F Aj H. apply mapr_ok in H. revert F Aj. induction H as [|p i ps is Hp H IH]; intros F Aj; [split; [apply good_nil|split; exact I]|]. inversion F as [|? ? Fp Fps]; subst. assert (adjP ps) as Aj2 by (destruct p, ps as [|[|]]; cbn in Aj; tauto). destruct (IH Fps Aj2) as (G & Ai & Hh). destruct (build_piece_src _ _ Fp Hp) as (S & M).
  cbn [map List.concat]. split; [now apply good_cons|]. destruct p as [s|w ar], i as [s'|w' o' a'|n']; try contradiction.
  - subst s'. split; [|exact I]. cbn [adjI]. split; [|exact Ai]. destruct is as [|[s2|w2 o2 a2|n2] is]; try exact I; [|contradiction]. destruct ps as [|[|] ps]; try contradiction. cbn in Aj. tauto.
  - split; [|exact I]. cbn [adjI]. exact Ai.
Qed.
Lemma cmd_split_head n acc s : exists p l, cmd_split n acc s = PStr p :: l.
Proof. revert acc s. induction n as [|n IH]; intros acc s; cbn [cmd_split]; [eauto|]. destruct s as [|a s]; [eauto|]. destruct (a =a bs); [|apply IH]. destruct (cmd_at s) as [[[w ar] r]|]; [eauto|apply IH]. Qed.
Lemma env_parts_form name c : ~ In rb name -> ~ sub (L "\end") name -> env_parts (begin_ ++ name ++ [rb] ++ c ++ end_ ++ name ++ [rb]) = (name, c).
Proof.
  intros N1 N2. unfold env_parts. change (begin_ ++ name ++ [rb] ++ c ++ end_ ++ name ++ [rb]) with (L "\begin" ++ lb :: (name ++ [rb] ++ c ++ end_ ++ name ++ [rb])). rewrite find_here by (cbn; intros H; decompose [or] H; discriminate || contradiction). change (name ++ [rb] ++ c ++ end_ ++ name ++ [rb]) with (name ++ rb :: (c ++ end_ ++ name ++ [rb])). rewrite find_here by auto. f_equal.
  change (c ++ end_ ++ name ++ [rb]) with (c ++ bs :: L "end" ++ (lb :: name ++ [rb])). change (L "\end") with (bs :: L "end"). rewrite rfind_last; [reflexivity|]. intros (x & y & E). apply N2. change (L "end" ++ lb :: name ++ [rb]) with (L "end{" ++ name ++ [rb]) in E.
  (* the occurrence starts inside name *)
  assert (forall p, ~ In bs p -> forall z x, p ++ z = x ++ (bs :: L "end") ++ y -> exists x', z = x' ++ (bs :: L "end") ++ y) as K.
  { induction p as [|a p IH]; intros Np z u Eu; [exists u; exact Eu|]. destruct u as [|b u]; [injection Eu as -> _; exfalso; apply Np; now left|]. injection Eu as _ Eu. apply (IH (fun H => Np (or_intror H)) z u Eu). }
  destruct (K (L "end{") ltac:(cbn; intros H; decompose [or] H; discriminate || contradiction) _ _ E) as (x' & E'). clear E K.
  destruct (List.exists_last (l := (bs :: L "end") ++ y)) as (q & d & Eq); [discriminate|]. rewrite Eq in E'. rewrite app_assoc in E'. apply app_inj_tail in E'. destruct E' as (E1 & <-). destruct y as [|b y].
  - exfalso. rewrite app_nil_r in Eq. change (bs :: L "end") with (L "\en" ++ ["d"%char]) in Eq. apply app_inj_tail in Eq. destruct Eq as (_ & Eq). discriminate.
  - destruct (List.exists_last (l := b :: y)) as (y' & d & Ey); [discriminate|]. rewrite Ey in Eq. rewrite app_assoc in Eq. apply app_inj_tail in Eq. destruct Eq as (Eq & _). rewrite <- Eq in E1. exists x', y'. exact E1.
Qed.
Lemma build_chunk_src c is : chunk_ok c -> clean (chunk_text c) -> P (chunk_text c) -> build_chunk rec c = Ok is -> good_src is (chunk_text c) /\ adjI is /\ (match c with CText _ => match is with IStr _ :: _ => True | _ => False end | _ => exists n, is = [INode n] /\ is_command n = false end).
Proof.
  destruct c as [s|m|m]; cbn [build_chunk chunk_ok chunk_text]; intros F C Ps H.
  - destruct (cmd_split_spec (List.length s) [] s) as (E & Fp). pose proof (cmd_split_adj (List.length s) [] s C) as Aj. destruct (build_pieces _ _ Fp Aj H) as (G & Ai & Hh). rewrite E in G. split; [exact G|]. split; [exact Ai|]. destruct (cmd_split_head (List.length s) [] s) as (p & l & Eh). rewrite Eh in H. apply mapr_ok in H. inversion H as [|? i ? ? Hi]; subst. injection Hi as <-. exact I.
  - destruct F as (name & c & -> & Nr). rewrite env_parts_form in H; auto.
    + destruct (rec c) as [l|e|] eqn:R; cbn [bindr] in H; try discriminate. destruct (str_eqb name (L "document") && negb (document_ok l)); [discriminate|]. injection H as <-. split; [|split; [exact I|eexists; split; [reflexivity|reflexivity]]]. rewrite <- (app_nil_r (begin_ ++ _)). apply good_cons; [|apply good_nil]. cbn [src print]. fold (prints l). repeat apply Qapp; auto. apply Hrec; auto; [eapply clean_sub; [exact C|]|eapply Psub; [exact Ps|]]; exists (begin_ ++ name ++ [rb]), (end_ ++ name ++ [rb]); now rewrite <- !app_assoc.
    + intros (x & y & ->). apply (C (begin_ ++ x ++ L "\end")); [constructor; intros Hx; apply Nr; apply in_or_app; now left|]. exists [], (y ++ [rb] ++ c ++ end_ ++ (x ++ L "\end" ++ y) ++ [rb]). cbn [List.app]. now rewrite <- !app_assoc.
  - destruct F as (x & X0 & Nx & ->). assert (math_parts (dollar :: x ++ [dollar]) = (false, x)) as Em.
    { unfold math_parts. destruct x as [|a x]; [contradiction|]. assert (dollar =a a = false) as Ea by (apply neqa; intros <-; apply Nx; now left). cbn [drop List.app]. rewrite Ascii.eqb_refl, Ea. f_equal. cbn [skipn]. rewrite app_comm_cons. replace (List.length (dollar :: (a :: x) ++ [dollar]) - 2)%nat with (List.length (a :: x)) by (cbn [List.length]; rewrite app_length; cbn; lia). rewrite firstn_app, firstn_all, Nat.sub_diag. cbn [firstn]. now rewrite app_nil_r. }
    rewrite Em in H. destruct (rec x) as [l|e|] eqn:R; cbn [bindr] in H; try discriminate. injection H as <-. split; [|split; [exact I|eexists; split; reflexivity]]. rewrite <- (app_nil_r (dollar :: _)). apply good_cons; [|apply good_nil]. cbn [src print msymb]. fold (prints l). change (dollar :: x ++ [dollar]) with ([dollar] ++ x ++ [dollar]). repeat apply Qapp; auto. apply Hrec; auto; [eapply clean_sub; [exact C|]|eapply Psub; [exact Ps|]]; exists [dollar], [dollar]; reflexivity.
Qed.
Lemma adjI_app l1 l2 : adjI l1 -> adjI l2 -> (match l2 with ICmd _ _ _ :: _ => False | INode n :: _ => is_command n = false | _ => True end) -> adjI (l1 ++ l2).
Proof.
  intros A1 A2 H. induction l1 as [|i l1 IH]; [exact A2|]. cbn [List.app]. destruct i as [p|w o a|n]; cbn [adjI] in A1 |- *; [|now apply IH|now apply IH]. destruct A1 as (B & A1). split; [|now apply IH]. destruct l1 as [|[|w o a|n] l1]; cbn [List.app]; auto. destruct l2 as [|[|w o a|n] l2]; auto; [contradiction|]. intros. congruence.
Qed.
Lemma build_chunks cs iss : Forall chunk_ok cs -> clean (List.concat (map chunk_text cs)) -> P (List.concat (map chunk_text cs)) -> mapr (build_chunk rec) cs = Ok iss ->
  good_src (List.concat iss) (List.concat (map chunk_text cs)) /\ adjI (List.concat iss) /\ (match List.concat iss with ICmd _ _ _ :: _ => False | INode n :: _ => is_command n = false | _ => True end).
Proof.
  intros F C Ps H. apply mapr_ok in H. revert F C Ps. induction H as [|c is cs iss Hc H IH]; intros F C Ps; [split; [apply good_nil|split; exact I]|]. cbn [map List.concat] in *. inversion F as [|? ? Fc Fcs]; subst.
  assert (sub (chunk_text c) (chunk_text c ++ List.concat (map chunk_text cs))) as S1 by (exists [], (List.concat (map chunk_text cs)); reflexivity). assert (sub (List.concat (map chunk_text cs)) (chunk_text c ++ List.concat (map chunk_text cs))) as S2 by (exists (chunk_text c), []; now rewrite app_nil_r).
  destruct (build_chunk_src _ _ Fc (clean_sub _ _ C S1) (Psub _ _ Ps S1) Hc) as (G & A & Hh). destruct (IH Fcs (clean_sub _ _ C S2) (Psub _ _ Ps S2)) as (G2 & A2 & Hh2). split; [now apply good_app|]. split; [now apply adjI_app|]. destruct c as [s|m|m]; [destruct is as [|[|w o a|n] is]; try contradiction; exact I| |]; destruct Hh as (n & -> & E); cbn; exact E.
Qed.
(** \left and \right *)
Lemma fix_lr_src l : forall l' t, clean t -> P t -> good_src l t -> adjI l -> fix_lr rec l = Ok l' ->
  Q (List.concat (map it_text (map to_it l'))) t /\ adjI l' /\ (match l with IStr s :: _ => exists r, l' = IStr s :: r | ICmd _ _ _ :: _ => match l' with ICmd _ _ _ :: _ => True | INode n :: _ => is_command n = true | _ => False end | INode n :: _ => exists r, l' = INode n :: r | [] => l' = [] end).
Proof.
  induction l as [|i l IH]; intros l' t C Ps G A; cbn [fix_lr].
  - intros [= <-]. destruct G as (us & F & ->). inversion F; subst. split; [apply Qrefl|]. split; [exact I|reflexivity].
  - destruct (good_cons_inv _ _ _ G) as (a & b & -> & Si & Gl). assert (adjI l) as Al by (destruct i; cbn in A; tauto). assert (sub b (a ++ b)) as Sb by (exists a, []; now rewrite app_nil_r). assert (sub a (a ++ b)) as Sa by (exists [], b; reflexivity).
    destruct (fix_lr rec l) as [tail|e|] eqn:Ft; cbn [bindr]; try discriminate. destruct (IH tail b (clean_sub _ _ C Sb) (Psub _ _ Ps Sb) Gl Al eq_refl) as (Qt & At & Ht). destruct i as [s|w orig args|n].
    + intros [= <-]. cbn [src] in Si. subst a. split; [cbn [map to_it it_text List.concat]; now apply Qapp|]. split; [|eauto]. cbn [adjI] in A |- *. destruct A as (A & _). split; [|exact At]. destruct l as [|[s2|w2 o2 a2|n2] l]; [subst tail; exact I|destruct Ht as (r & ->); exact I| |destruct Ht as (r & ->); exact A]. destruct tail as [|[|w3 o3 a3|n3] tail]; try contradiction; auto.
    + destruct Si as (-> & Nw & Af & Em). assert (Q (print_cmd w args) (bs :: w ++ orig)) as Qc. { unfold print_cmd. change (bs :: w ++ List.concat (map print_arg args)) with ((bs :: w) ++ List.concat (map print_arg args)). change (bs :: w ++ orig) with ((bs :: w) ++ orig). apply Qapp; [apply Qrefl|]. apply Qargs; auto. eapply Psub; [exact Ps|]. exists (bs :: w), b. cbn. now rewrite <- app_assoc. }
      assert (Q (List.concat (map it_text (map to_it (ICmd w orig args :: tail)))) ((bs :: w ++ orig) ++ b) /\ adjI (ICmd w orig args :: tail) /\ match ICmd w orig args :: tail with ICmd _ _ _ :: _ => True | INode n :: _ => is_command n = true | _ => False end) as Same by (split; [cbn [map to_it it_text List.concat print]; now apply Qapp|split; [exact At|exact I]]).
      destruct (str_eqb w left_) eqn:El.
      * apply eqs in El. subst w. destruct args as [|ag args]; cbn [negb andb orb].
        { assert (orig = []) as ->. { destruct (make_args_spec _ _ Em) as [(-> & _)|(_ & N & _)]; [reflexivity|congruence]. } rewrite app_nil_r in *. destruct tail as [|[s|w2 o2 a2|n2] tl]; try (intros [= <-]; exact Same). destruct s as [|c s']; [discriminate|]. destruct (is_space c) eqn:Es; [intros [= <-]; exact Same|]. intros [= <-]. cbn [map to_it it_text List.concat] in Qt. split.
          - cbn [map to_it it_text List.concat print]. change ((bs :: left_) ++ b) with ((bs :: left_) ++ b). change (bs :: left_ ++ [c]) with ((bs :: left_) ++ [c]). rewrite <- app_assoc. apply Qapp; [apply Qrefl|]. destruct s'; cbn [map to_it it_text List.concat]; exact Qt.
          - split; [|reflexivity]. cbn [adjI] in At |- *. destruct At as (A1 & A2). destruct s' as [|d s']; [exact A2|]. cbn [adjI]. split; [|exact A2]. assert (ends_brace (c :: d :: s') = false -> ends_brace (d :: s') = false) as Eb. { intros H. destruct (ends_brace (d :: s')) eqn:Z; [|reflexivity]. apply (ends_brace_app [c]) in Z. cbn in Z. congruence. } destruct tl as [|[|w3 o3 a3|n3] tl]; auto. }
        { destruct orig as [|c r]; [discriminate|]. destruct (rec r) as [ns|e|] eqn:R; cbn [bindr]; try discriminate. intros [= <-]. split.
          - cbn [map to_it it_text List.concat]. rewrite map_app, map_app, concat_app, !map_map. cbn [to_it it_text print]. change (List.concat (map (fun x => print x) ns)) with (prints ns). change ((bs :: left_ ++ c :: r) ++ b) with (((bs :: left_) ++ [c] ++ r) ++ b). rewrite <- !app_assoc. change (bs :: left_ ++ [c]) with ((bs :: left_) ++ [c]). rewrite <- !app_assoc. rewrite map_map in Qt. repeat apply Qapp; auto. apply Hrec; auto; [eapply clean_sub; [exact C|]|eapply Psub; [exact Ps|]]; exists ((bs :: left_) ++ [c]), b; cbn [List.app]; now rewrite <- !app_assoc.
          - split; [|reflexivity]. cbn [adjI]. clear -At. induction ns as [|n ns IHn]; cbn [map List.app adjI]; auto. }
      * cbn [andb orb]. destruct (str_eqb w right_) eqn:Er; [|intros [= <-]; exact Same]. apply eqs in Er. subst w.
        assert (orig = []) as ->. { destruct orig as [|c r]; [reflexivity|]. exfalso. assert (opener c = true) as Oc by (inversion Af; reflexivity). apply (C _ (BadRight c Oc)). exists [], (r ++ b). reflexivity. }
        rewrite app_nil_r in *. destruct tail as [|[s|w2 o2 a2|n2] tl]; try (intros [= <-]; exact Same). destruct s as [|c s']; [discriminate|]. destruct (is_space c) eqn:Es; [intros [= <-]; exact Same|]. intros [= <-]. cbn [map to_it it_text List.concat] in Qt. split.
        { cbn [map to_it it_text List.concat print]. change (bs :: right_ ++ [c]) with ((bs :: right_) ++ [c]). rewrite <- app_assoc. apply Qapp; [apply Qrefl|]. destruct s'; cbn [map to_it it_text List.concat]; exact Qt. }
        { split; [|reflexivity]. cbn [adjI] in At |- *. destruct At as (A1 & A2). destruct s' as [|d s']; [exact A2|]. cbn [adjI]. split; [|exact A2]. assert (ends_brace (c :: d :: s') = false -> ends_brace (d :: s') = false) as Eb. { intros H. destruct (ends_brace (d :: s')) eqn:Z; [|reflexivity]. apply (ends_brace_app [c]) in Z. cbn in Z. congruence. } destruct tl as [|[|w3 o3 a3|n3] tl]; auto. }
    + intros [= <-]. cbn [src] in Si. split; [cbn [map to_it it_text List.concat]; now apply Qapp|]. split; [exact At|eauto].
Qed.
(** without declarations the last stage does nothing *)
Lemma adjI_nth l : adjI l -> forall i p c, nth_error (map to_it l) i = Some (S_ p) -> nth_error (map to_it l) (S i) = Some (N_ c) -> is_command c = true -> ends_brace p = false.
Proof.
  induction l as [|j l IH]; intros A i p c H1 H2 Hc; [destruct i; discriminate|]. destruct i as [|i].
  - cbn in H1. destruct j as [s|w o a|n]; try discriminate. injection H1 as ->. cbn [adjI] in A. destruct A as (A & _). destruct l as [|[s2|w2 o2 a2|n2] l]; cbn in H2; try discriminate; auto. injection H2 as ->. auto.
  - apply (IH (match j as j return adjI (j :: l) -> adjI l with IStr _ => fun H => proj2 H | _ => fun H => H end A) i p c); auto.
Qed.
Lemma decls_id l : adjI l -> decls rec (map to_it l) = Ok (map to_it l).
Proof.
  intros A. unfold decls. assert (forall is, Forall (fun i => (1 <= i)%nat) is -> decl_loop rec is (map to_it l) [] = Ok (map to_it l, [])) as K.
  { induction is as [|i is IH]; intros F; cbn [decl_loop]; [reflexivity|]. inversion F; subst. assert (decl_step rec i (map to_it l) [] = Ok (map to_it l, [])) as ->; [|cbn [bindr fst snd]; auto]. unfold decl_step. destruct (nth_error (map to_it l) (i - 1)) as [[p|]|] eqn:E1; auto. destruct (nth_error (map to_it l) i) as [[|c]|] eqn:E2; auto. destruct (nth_error (map to_it l) (S i)) as [[q|]|]; auto.
    destruct (is_command c) eqn:Ec; cbn [andb]; auto. assert (ends_brace p = false) as ->; [|reflexivity]. apply (adjI_nth l A (i - 1) p c); auto. now replace (S (i - 1)) with i by lia. }
  rewrite K; [reflexivity|]. apply Forall_forall. intros i Hi. apply in_seq in Hi. lia.
Qed.
Lemma level t ns cs : clean t -> P t -> mapr (build_chunk rec) (env_split (List.length t) t) = Ok cs ->
  bindr (fix_lr rec (List.concat cs)) (fun l => bindr (decls rec (map to_it l)) (fun l => Ok (to_nodes l))) = Ok ns -> Q (prints ns) t.
Proof.
  intros C Ps Hc H. destruct (env_split_spec (List.length t) t (C _ BadDisplay)) as (E & F). set (chunks := env_split (List.length t) t) in *. assert (clean (List.concat (map chunk_text chunks))) as C' by (rewrite <- E; exact C). assert (P (List.concat (map chunk_text chunks))) as Ps' by (rewrite <- E; exact Ps). destruct (build_chunks _ _ F C' Ps' Hc) as (G & A & _). rewrite <- E in G.
  destruct (fix_lr rec (List.concat cs)) as [l|e|] eqn:Fl; cbn [bindr] in H; try discriminate. destruct (fix_lr_src _ _ _ C Ps G A Fl) as (Ql & Al & _). rewrite (decls_id _ Al) in H. cbn [bindr] in H. injection H as <-. now rewrite to_nodes_print.
Qed.
End Level.

Theorem parse_conserves (Q : str -> str -> Prop) (P : str -> Prop) : (forall s, Q s s) -> (forall a b c d, Q a b -> Q c d -> Q (a ++ c) (b ++ d)) -> (forall x t, P t -> sub x t -> P x) ->
  (forall ar args, P ar -> args_form ar -> make_args ar = Ok args -> Q (List.concat (map print_arg args)) ar) ->
  forall n t ns, clean t -> P t -> parse n t = Ok ns -> Q (prints ns) t.
Proof.
  intros Qr Qa Ps Qg. induction n as [|n IH]; intros t ns C Pt; cbn [parse]; [discriminate|]. destruct (mapr (build_chunk (parse n)) (env_split (List.length t) t)) as [cs|e|] eqn:E; cbn [bindr]; try discriminate. intros H. eapply level; eauto.
Qed.
(** ** C57: a parsed text prints as itself, but for the kind of some closing brackets *)
Theorem C57_conservation : forall t ns, clean t -> text_to_nodes t = Ok ns -> closers_apart (prints ns) t.
Proof.
  intros t ns C. unfold text_to_nodes. apply (parse_conserves closers_apart (fun _ => True)); auto.
  - apply closers_refl.
  - intros a b c d H1 H2. now apply Forall2_app.
  - intros ar args _ _. apply make_args_closers.
Qed.
(** exactly as itself when the two kinds of brackets do not interleave *)
Theorem C57_exact : forall t ns, clean t -> tidy t -> text_to_nodes t = Ok ns -> prints ns = t.
Proof.
  intros t ns C N. unfold text_to_nodes. apply (parse_conserves eq tidy); auto.
  - intros; congruence.
  - intros x s Hs Sx. eapply tidy_sub; eauto.
  - intros ar args Na A M. now apply make_args_exact.
Qed.
