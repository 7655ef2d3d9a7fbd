(** * PubFile: when parsing succeeds, and where conservation fails (C57) *)
From Coq Require Import List Bool ZArith String Ascii Arith Lia.
From Verif Require Import PyBase PubModel PubProps.
Import ListNotations.

(** ** parsing succeeds on texts without \left, \right, \section *)
Definition plain (t : str) : Prop := clean t /\ tidy t /\ ~ sub (L "\left") t /\ ~ sub (L "\right") t /\ ~ sub (L "\section") t.
Lemma plain_sub t x : plain t -> sub x t -> plain x.
Proof.
  intros (C & N & A1 & A2 & A3) S. split; [eapply clean_sub; eauto|]. split; [|split; [|split]; intros H; [apply A1|apply A2|apply A3]; eapply sub_trans; eauto]. eapply tidy_sub; eauto.
Qed.
Lemma mapr_total {A B} (f : A -> @res B) (R : B -> Prop) l : Forall (fun a => exists b, f a = Ok b /\ R b) l -> exists q, mapr f l = Ok q /\ Forall R q.
Proof. induction 1 as [|a l (b & E & Hb) F (q & IH & Hq)]; [exists []; auto|]. exists (b :: q). cbn [mapr]. rewrite E, IH. auto. Qed.
Lemma in_concat_sub {A} (f : A -> str) l a : In a l -> sub (f a) (List.concat (map f l)).
Proof.
  induction l as [|b l IH]; [intros []|]. intros [->|H]; cbn [map List.concat]; [exists [], (List.concat (map f l)); reflexivity|]. eapply sub_trans; [now apply IH|]. exists (f b), []. now rewrite app_nil_r.
Qed.
Lemma sub_app_l a b : sub a (a ++ b). Proof. now exists [], b. Qed.
Lemma sub_app_r a b : sub b (a ++ b). Proof. exists a, []. now rewrite app_nil_r. Qed.
Lemma chunks_src rec t cs iss : t = List.concat (map chunk_text cs) -> Forall chunk_ok cs -> clean t -> mapr (build_chunk rec) cs = Ok iss -> good_src (fun _ _ => True) (List.concat iss) t /\ adjI (List.concat iss).
Proof. intros -> F C H. destruct (build_chunks (fun _ _ => True) (fun _ => I) (fun _ _ _ _ _ _ => I) (fun _ => True) (fun _ _ _ _ => I) rec (fun _ _ _ _ _ => I) cs iss F C I H) as (G & A & _). auto. Qed.
Lemma lr_adj rec l l' t : clean t -> good_src (fun _ _ => True) l t -> adjI l -> fix_lr rec l = Ok l' -> adjI l'.
Proof. intros C G A H. apply (fix_lr_src (fun _ _ => True) (fun _ => I) (fun _ _ _ _ _ _ => I) (fun _ => True) (fun _ _ _ _ => I) (fun _ _ _ _ _ => I) rec (fun _ _ _ _ _ => I) l l' t C I G A H). Qed.
(** the commands of [t]: names preceded by a backslash in [t], neither \left nor \right *)
Definition item_of (t : str) (i : item) : Prop := match i with ICmd w _ _ => sub (bs :: w) t | INode (Cmd w _) => False | _ => True end.
Definition node_of (t : str) (n : node) : Prop := match n with Cmd w _ => sub (bs :: w) t | _ => True end.
Lemma fix_lr_id rec l : Forall (fun i => match i with ICmd w _ _ => str_eqb w left_ = false /\ str_eqb w right_ = false | _ => True end) l -> fix_lr rec l = Ok l.
Proof.
  induction 1 as [|i l H F IH]; cbn [fix_lr]; [reflexivity|]. rewrite IH. cbn [bindr]. destruct i as [s|w o a|n]; auto. destruct H as (-> & ->). reflexivity.
Qed.
Lemma document_ok_plain t ns : ~ sub (L "\section") t -> Forall (node_of t) ns -> document_ok ns = true.
Proof.
  intros N F. unfold document_ok. apply forallb_forall. intros n Hn. rewrite Forall_forall in F. specialize (F n Hn). destruct n as [| | | |w args| | |]; auto. cbn [node_of] in F. destruct (str_eqb w (L "section")) eqn:E1.
  { exfalso. apply eqs in E1. subst w. apply N. exact F. } destruct (str_eqb w (L "section*")) eqn:E2; [|reflexivity]. exfalso. apply eqs in E2. subst w. apply N. eapply sub_trans; [|exact F]. exists [], [star]. reflexivity.
Qed.
Lemma parse_total : forall n t, (List.length t < n)%nat -> plain t -> exists ns, parse n t = Ok ns /\ Forall (node_of t) ns.
Proof.
  induction n as [|n IH]; intros t Ln Pl; [lia|]. cbn [parse]. pose proof Pl as (C & Nr & N1 & N2 & N3).
  destruct (env_split_spec (List.length t) t (C _ BadDisplay)) as (E & F). set (cs := env_split (List.length t) t) in *. clearbody cs.
  assert (exists iss, mapr (build_chunk (parse n)) cs = Ok iss /\ Forall (fun is => Forall (item_of t) is) iss) as (iss & Eb & Fi).
  { apply mapr_total. apply Forall_forall. intros c Hc. assert (sub (chunk_text c) t) as Sc by (rewrite E; now apply in_concat_sub). rewrite Forall_forall in F. specialize (F c Hc). destruct c as [s|m|m]; cbn [build_chunk chunk_text chunk_ok] in *.
    - apply mapr_total. apply Forall_forall. intros p Hp. destruct (cmd_split_spec (List.length s) [] s) as (Es & Fs). rewrite Forall_forall in Fs. specialize (Fs p Hp). assert (sub (piece_text p) t) as Sp by (eapply sub_trans; [|exact Sc]; change s with ([] ++ s); rewrite <- Es; now apply in_concat_sub).
      destruct p as [x|w ar]; cbn [build_piece piece_ok piece_text] in *; [exists (IStr x); split; [reflexivity|exact I]|]. destruct Fs as (Nw & Af). destruct (make_args_total ar Af) as (args & ->). { eapply tidy_sub; [exact Nr|]. eapply sub_trans; [|exact Sp]. change (bs :: w ++ ar) with ((bs :: w) ++ ar). apply sub_app_r. }
      exists (ICmd w ar args). split; [reflexivity|]. cbn [item_of]. eapply sub_trans; [|exact Sp]. change (bs :: w ++ ar) with ((bs :: w) ++ ar). apply sub_app_l.
    - destruct F as (name & c & -> & Nb). assert (~ sub (L "\end") name) as Ne. { intros (x & y & ->). apply (clean_sub _ _ C Sc (begin_ ++ x ++ L "\end")); [constructor; intros Hx; apply Nb; apply in_or_app; now left|]. exists [], (y ++ [rb] ++ c ++ end_ ++ (x ++ L "\end" ++ y) ++ [rb]). cbn [List.app]. now rewrite <- !app_assoc. }
      rewrite env_parts_form by auto. assert (sub c (begin_ ++ name ++ [rb] ++ c ++ end_ ++ name ++ [rb])) as S1 by (exists (begin_ ++ name ++ [rb]), (end_ ++ name ++ [rb]); now rewrite <- !app_assoc).
      destruct (IH c) as (l & -> & Fl). { destruct Sc as (a & b & Et). rewrite Et in Ln. rewrite !app_length in Ln. unfold begin_ in Ln. cbn in Ln. lia. } { eapply plain_sub; [exact Pl|]. eapply sub_trans; eauto. }
      cbn [bindr]. rewrite (document_ok_plain c l); [|intros H; apply N3; eapply sub_trans; [exact H|]; eapply sub_trans; eauto|exact Fl]. rewrite andb_false_r. eexists. split; [reflexivity|]. repeat constructor.
    - destruct F as (x & X0 & Nx & ->). assert (math_parts (dollar :: x ++ [dollar]) = (false, x)) as Em.
      { unfold math_parts. destruct x as [|a x]; [contradiction|]. assert (dollar =a a = false) as Ea by (apply neqa; intros <-; apply Nx; now left). cbn [drop List.app]. rewrite Ascii.eqb_refl, Ea. f_equal. cbn [skipn]. rewrite app_comm_cons. replace (List.length (dollar :: (a :: x) ++ [dollar]) - 2)%nat with (List.length (a :: x)) by (cbn [List.length]; rewrite app_length; cbn; lia). rewrite firstn_app, firstn_all, Nat.sub_diag. cbn [firstn]. now rewrite app_nil_r. }
      rewrite Em. destruct (IH x) as (l & -> & Fl). { destruct Sc as (a & b & Et). rewrite Et in Ln. rewrite !app_length in Ln. cbn in Ln. rewrite app_length in Ln. lia. } { eapply plain_sub; [exact Pl|]. eapply sub_trans; [|exact Sc]. exists [dollar], [dollar]. reflexivity. }
      cbn [bindr]. eexists. split; [reflexivity|]. repeat constructor. }
  rewrite Eb. cbn [bindr]. assert (Forall (item_of t) (List.concat iss)) as Fc by (apply Forall_concat; exact Fi).
  assert (fix_lr (parse n) (List.concat iss) = Ok (List.concat iss)) as ->.
  { apply fix_lr_id. eapply Forall_impl; [|exact Fc]. intros [s|w o a|m] H; auto. cbn [item_of] in H. split; (destruct (str_eqb _ _) eqn:Q; [|reflexivity]); exfalso; apply eqs in Q; subst w; [apply N1|apply N2]; exact H. }
  cbn [bindr]. destruct (chunks_src _ _ _ _ E F C Eb) as (_ & Aj).
  rewrite (decls_id _ _ Aj). cbn [bindr]. eexists. split; [reflexivity|]. unfold to_nodes. apply Forall_flat_map. apply Forall_forall. intros j Hj. apply in_map_iff in Hj. destruct Hj as (i & <- & Hi). rewrite Forall_forall in Fc. specialize (Fc i Hi). destruct i as [s|w o a|m]; cbn [to_it item_of] in *.
  - unfold text_nodes. destruct (split_on nl s) as [|x l]; [constructor|]. constructor; [exact I|]. apply Forall_flat_map. apply Forall_forall. intros y _. repeat constructor.
  - repeat constructor. exact Fc.
  - constructor; [|constructor]. destruct m; cbn in *; auto. contradiction.
Qed.
(** such a text parses, and prints as itself *)
Theorem C57_round_trip : forall t, plain t -> exists ns, text_to_nodes t = Ok ns /\ prints ns = t.
Proof.
  intros t Pl. destruct (parse_total (S (List.length t)) t ltac:(lia) Pl) as (ns & E & _). exists ns. split; [exact E|]. destruct Pl as (C & N & _). now apply C57_exact.
Qed.

(** ** what the conditions exclude *)
Theorem C57_display_refuted : exists ns, text_to_nodes (L "$$x$y") = Ok ns /\ prints ns = L "$$$$y".
Proof. eexists. split; vm_compute; reflexivity. Qed.
(** a command inside a declaration is printed twice when a brace opens before it *)
Theorem C57_declaration_refuted : exists ns, text_to_nodes (L "{\it a{b\cmd c}d}") = Ok ns /\ prints ns = L "{\it a{b\cmd c}d}\cmd".
Proof. eexists. split; vm_compute; reflexivity. Qed.
(** \left or \right directly followed by a command *)
Theorem C57_left_refuted : text_to_nodes (L "\left\langle x \right\rangle ") = Raise IndexError.
Proof. vm_compute. reflexivity. Qed.
Theorem C57_right_refuted : exists ns, text_to_nodes (L "\right[a]b") = Ok ns /\ prints ns = L "\rightb".
Proof. eexists. split; vm_compute; reflexivity. Qed.
Theorem C57_brackets_refuted : (exists ns, text_to_nodes (L "\foo{a]{b}") = Ok ns /\ prints ns = L "\foo{a}{b}") /\ text_to_nodes (L "\footnote{see [1] {\it foo} }") = Raise ValueError.
Proof. split; [eexists; split; vm_compute; reflexivity|vm_compute; reflexivity]. Qed.

