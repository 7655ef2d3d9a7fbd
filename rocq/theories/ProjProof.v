(** * ProjProof: the project registry (C106, C107) *)
From Coq Require Import List Bool Arith Ascii String Lia.
From Verif Require Import PyBase PubModel PubComments IoColumns IoFiles CfgModel CfgRx CfgLine CfgRead CfgFile CfgEdit ProjModel.
Import ListNotations.

(** ** Specification *)
(** what the registry file says *)
Definition content (w : world) (s : fs) : option str := match s (conf w) with Some (File t) => Some t | _ => None end.
Definition good (w : world) (s : fs) (o : cfg) : Prop := load (content w s) = Done o /\ safe o.
(** a full path without . and .. *)
Definition proper (c : str) : Prop := c <> [] /\ c <> L "." /\ c <> L ".." /\ ~ In "/"%char c.
Definition full_path (p : str) : Prop := exists cs, Forall proper cs /\ (p = L "/" ++ join (L "/") cs \/ p = L "//" ++ join (L "/") cs).
(** from [s] to [x] nothing but the paths [al] was changed, and of those only [c] if it was there before *)
Definition only (c : str) (al : list str) (s x : fs) : Prop := forall p, x p = s p \/ (In p al /\ (s p = None \/ p = c)).

Lemma only_refl c al s : only c al s s. Proof. intros p. now left. Qed.
Lemma only_trans c al s x y : only c al s x -> only c al x y -> only c al s y.
Proof. intros H1 H2 p. destruct (H2 p) as [E|(I2 & E)]; [rewrite E; apply H1|]. destruct (H1 p) as [E1|(I1 & E1)]; [rewrite E1 in E; auto|auto]. Qed.
Definition within {A} (c : str) (al : list str) (m : act A) (s : fs) : Prop := forall tr s' r, m s = (tr, s', r) -> Forall (only c al s) tr /\ only c al s s'.
Lemma within_same {A} c al (m : act A) s r : m s = ([], s, r) -> within c al m s.
Proof. intros E tr s' r' E'. rewrite E in E'. inversion E'; subst. split; [constructor|apply only_refl]. Qed.
Lemma within_bind {A B} c al (m : act A) (f : A -> act B) s : within c al m s -> (forall a s1, within c al (f a) s1) -> within c al (bind m f) s.
Proof.
  intros Hm Hf tr s' r E. unfold bind in E. destruct (m s) as [[tr1 s1] [a|e|]] eqn:Em; destruct (Hm _ _ _ Em) as (H1 & H2); [|inversion E; subst; auto|inversion E; subst; auto].
  destruct (f a s1) as [[tr2 s2] b] eqn:Ef. destruct (Hf a s1 _ _ _ Ef) as (H3 & H4). inversion E; subst. split; [|now apply (only_trans c al s s1)].
  apply Forall_app. split; [exact H1|]. revert H3. apply Forall_impl. intros x. now apply only_trans.
Qed.
Lemma only_upd c al s p n : In p al -> s p = None \/ p = c -> only c al s (upd p n s).
Proof. intros I' H q. unfold upd. destruct (str_eqb q p) eqn:E; [|now left]. apply str_eqb_spec in E. subst. auto. Qed.
Lemma within_mkdir c al w p s : In p al -> within c al (mkdir w p) s.
Proof.
  intros I' tr s' r E. unfold mkdir in E. destruct (may w p && negb (exists_ s p) && isdir s (parent p)) eqn:G; inversion E; subst; [|split; [constructor|apply only_refl]].
  apply andb_true_iff in G. destruct G as (G & _). apply andb_true_iff in G. destruct G as (_ & G). assert (only c al s (upd p Dir s)) by (apply only_upd; [exact I'|left; unfold exists_ in G; destruct (s p); [discriminate|reflexivity]]). split; [constructor; [assumption|constructor]|assumption].
Qed.
Lemma within_write c al w p txt s : In p al -> s p = None \/ p = c -> within c al (write w p txt) s.
Proof.
  intros I' H tr s' r E. unfold write in E. destruct (may w p && negb (isdir s p) && isdir s (parent p)); [|inversion E; subst; split; [constructor|apply only_refl]].
  assert (forall t, only c al s (upd p (File t) s)) as K by (intros; now apply only_upd). inversion E; subst. split; [|apply K]. apply Forall_forall. intros x Ix. apply (in_map_iff (fun n => upd p (File (firstn n txt)) s) (0 :: seq 1 (List.length txt))) in Ix. destruct Ix as (n & <- & _). apply K.
Qed.
Lemma within_config c al w s : In (confdir w) al -> within c al (get_config w) s.
Proof.
  intros I'. apply within_bind.
  - unfold look. intros tr s' r E. destruct (isdir s (confdir w)) eqn:D.
    + inversion E; subst. split; [constructor|apply only_refl].
    + now apply (within_mkdir c al w (confdir w) s I') in E.
  - intros _ s1. unfold look. destruct (load (match s1 (conf w) with Some (File t) => Some t | _ => None end)) as [o|[|[|n]]|] eqn:Ld; (eapply within_same; cbv beta; rewrite Ld; reflexivity).
Qed.
Lemma within_write_config al w o s : In (conf w) al -> within (conf w) al (write_config w o) s.
Proof. intros I'. unfold write_config. destruct (dump o) as [t|e|]; [apply within_write; auto|eapply within_same; reflexivity|eapply within_same; reflexivity]. Qed.
Definition touched (w : world) (name : str) (dir script : option str) : list str := let d := project_dir w name dir in [confdir w; conf w; d; script_file w d name script].
Lemma within_add w name dir script s : within (conf w) (touched w name dir script) (add_project w name dir script) s.
Proof.
  unfold add_project. apply within_bind; [apply within_config; cbn; tauto|]. intros pc s1. cbv zeta. set (d := project_dir w name dir). set (f := script_file w d name script). apply within_bind.
  - unfold look. destruct (isdir s1 d) eqn:D; [eapply within_same; cbv beta; rewrite D; reflexivity|]. intros tr s' r E. cbv beta in E. rewrite D in E. apply (within_mkdir (conf w) (touched w name dir script) w d s1) in E; [exact E|]. unfold touched. cbn. tauto.
  - intros _ s2. apply within_bind.
    + unfold look. destruct (exists_ s2 f) eqn:D.
      * destruct (isdir s2 f) eqn:D2; eapply within_same; cbv beta; rewrite D, D2; reflexivity.
      * intros tr s' r E. cbv beta in E. rewrite D in E. cbn [negb] in E. apply (within_write (conf w) (touched w name dir script)) in E; [exact E|unfold touched; cbn; tauto|]. left. unfold exists_ in D. destruct (s2 f); [discriminate|reflexivity].
    + intros _ s3. destruct pc as [o|]; [|eapply within_same; reflexivity]. apply within_bind; [apply within_write_config; unfold touched; cbn; tauto|]. intros _ s4. eapply within_same. reflexivity.
Qed.
Lemma within_del w name s : within (conf w) [confdir w; conf w] (del_project w name) s.
Proof.
  unfold del_project. apply within_bind; [apply within_config; cbn; tauto|]. intros pc s1. destruct pc as [o|]; [|eapply within_same; reflexivity]. destruct (del_item name o) as [o'|e|]; [apply within_write_config; cbn; tauto|eapply within_same; reflexivity|eapply within_same; reflexivity].
Qed.
(** C106: adding a project never changes a file or directory that is there, except for the registry file, whatever fails and at every moment; and it makes no others than the directories and files named *)
Theorem add_keeps_files w name dir script s tr s' r : add_project w name dir script s = (tr, s', r) -> forall x, In x (tr ++ [s']) -> forall p,
  (forall n, s p = Some n -> p <> conf w -> x p = Some n) /\ (s p = None -> x p <> None -> p = confdir w \/ p = conf w \/ p = project_dir w name dir \/ p = script_file w (project_dir w name dir) name script).
Proof.
  intros E x Ix p. destruct (within_add w name dir script s tr s' r E) as (H1 & H2). assert (only (conf w) (touched w name dir script) s x) as O. { apply in_app_or in Ix. destruct Ix as [Ix|[<-|[]]]; [|exact H2]. rewrite Forall_forall in H1. now apply H1. }
  split.
  - intros n Hs N. destruct (O p) as [->|(_ & [H|H])]; [exact Hs|congruence|contradiction].
  - intros Hs Hx. destruct (O p) as [H|(H & _)]; [congruence|]. cbn in H. intuition congruence.
Qed.
(** C106: removing a project changes nothing but the registry file *)
Theorem del_keeps_files w name s tr s' r : del_project w name s = (tr, s', r) -> forall x, In x (tr ++ [s']) -> forall p, p <> conf w -> x p = s p \/ (p = confdir w /\ s p = None).
Proof.
  intros E x Ix p N. destruct (within_del w name s tr s' r E) as (H1 & H2). assert (only (conf w) [confdir w; conf w] s x) as O. { apply in_app_or in Ix. destruct Ix as [Ix|[<-|[]]]; [|exact H2]. rewrite Forall_forall in H1. now apply H1. }
  destruct (O p) as [H|(H & H')]; [now left|]. right. cbn in H. intuition congruence.
Qed.

(** ** Results *)
Lemma upd_same p n s : upd p n s p = Some n. Proof. unfold upd. now rewrite str_eqb_same. Qed.
Lemma upd_other p n s q : q <> p -> upd p n s q = s q. Proof. intros N. unfold upd. now rewrite str_eqb_diff. Qed.
Lemma conf_not_dir w : conf w <> confdir w.
Proof. intros H. apply (f_equal (@List.length ascii)) in H. unfold conf in H. rewrite app_length in H. cbn in H. lia. Qed.
Lemma config_cases w s tr s1 r : get_config w s = (tr, s1, r) -> Forall (fun x => x (conf w) = s (conf w)) tr /\ s1 (conf w) = s (conf w) /\ 
  ((r = Error OSError /\ s1 = s /\ tr = []) \/ (r = match load (content w s) with Done o => Fine (Some o) | Failed 1 => Fine None | Failed _ => Error ConfigObjError | Unmodelled => Outside end)).
Proof.
  unfold get_config, bind, look. destruct (isdir s (confdir w)) eqn:D.
  - cbn [ret]. fold (content w s). destruct (load (content w s)) as [o|[|[|n]]|]; intros E; inversion E; subst; (split; [constructor|]); (split; [reflexivity|]); right; reflexivity.
  - unfold mkdir. destruct (may w (confdir w) && negb (exists_ s (confdir w)) && isdir s (parent (confdir w))); [|intros E; inversion E; subst; split; [constructor|]; split; [reflexivity|left; auto]].
    rewrite upd_other by apply conf_not_dir. fold (content w s). assert (Forall (fun x : fs => x (conf w) = s (conf w)) [upd (confdir w) Dir s]) as F by (constructor; [apply upd_other, conf_not_dir|constructor]).
    destruct (load (content w s)) as [o|[|[|n]]|]; intros E; inversion E; subst; (split; [exact F|]); (split; [apply upd_other, conf_not_dir|]); right; reflexivity.
Qed.
Definition registry_only_written (w : world) (s : fs) (tr : list fs) (o : cfg) : Prop := Forall (fun x => x (conf w) = s (conf w) \/ exists t n, dump o = Ok t /\ x (conf w) = Some (File (firstn n t))) tr.
Lemma write_config_cases w o s tr s1 r : write_config w o s = (tr, s1, r) -> registry_only_written w s tr o /\ (forall q, q <> conf w -> s1 q = s q) /\
  match r with Fine _ => exists t, dump o = Ok t /\ s1 (conf w) = Some (File t) /\ isdir s (conf w) = false | _ => s1 = s end.
Proof.
  unfold write_config. destruct (dump o) as [t|e|] eqn:D; [|intros E; inversion E; subst; repeat split; constructor|intros E; inversion E; subst; repeat split; constructor].
  unfold write. destruct (may w (conf w) && negb (isdir s (conf w)) && isdir s (parent (conf w))) eqn:G; intros E; inversion E; subst; [|repeat split; constructor].
  split; [|split; [intros q N; now apply upd_other|]].
  - unfold registry_only_written. apply Forall_forall. intros x Ix. apply (in_map_iff (fun n => upd (conf w) (File (firstn n t)) s) (0 :: seq 1 (List.length t))) in Ix. destruct Ix as (n & <- & _). right. exists t, n. split; [exact D|apply upd_same].
  - exists t. split; [reflexivity|]. split; [apply upd_same|]. apply andb_true_iff in G. destruct G as (G & _). apply andb_true_iff in G. destruct G as (_ & G). now apply negb_true_iff in G.
Qed.
(** the two preparations *)
Lemma dir_cases w d s tr s1 r : look (fun s => if isdir s d then ret tt else mkdir w d) s = (tr, s1, r) -> (forall x, In x (s1 :: tr) -> forall q, q <> d -> x q = s q) /\ match r with Fine _ => s1 d = Some Dir | _ => s1 = s end.
Proof.
  unfold look. destruct (isdir s d) eqn:D.
  - intros E. inversion E; subst. split; [intros x [<-|[]] q _; reflexivity|]. unfold isdir in D. destruct (s1 d) as [[|]|]; congruence.
  - unfold mkdir. destruct (may w d && negb (exists_ s d) && isdir s (parent d)); intros E; inversion E; subst.
    + split; [intros x [<-|[<-|[]]] q N; now apply upd_other|apply upd_same].
    + split; [intros x [<-|[]] q _; reflexivity|reflexivity].
Qed.
Lemma script_cases w f s tr s1 r : look (fun s => if negb (exists_ s f) then write w f (template w) else if isdir s f then fail IOError else ret tt) s = (tr, s1, r) ->
  (forall x, In x (s1 :: tr) -> forall q, q <> f -> x q = s q) /\ match r with Fine _ => (exists t, s1 f = Some (File t) /\ (s f = Some (File t) \/ (s f = None /\ t = template w))) | _ => s1 = s end.
Proof.
  unfold look. unfold exists_, isdir at 1. destruct (s f) as [[t|]|] eqn:D; cbn [negb].
  - intros E. inversion E; subst. split; [intros x [<-|[]] q _; reflexivity|]. exists t. auto.
  - intros E. inversion E; subst. split; [intros x [<-|[]] q _; reflexivity|reflexivity].
  - unfold write. destruct (may w f && negb (isdir s f) && isdir s (parent f)); intros E; inversion E; subst.
    + split; [|exists (template w); split; [apply upd_same|auto]]. intros x Ix q N. destruct Ix as [<-|Ix]; [now apply upd_other|]. apply (in_map_iff (fun n => upd f (File (firstn n (template w))) s) (0 :: seq 1 (List.length (template w)))) in Ix. destruct Ix as (n & <- & _). now apply upd_other.
    + split; [intros x [<-|[]] q _; reflexivity|reflexivity].
Qed.
Lemma config_made w s tr s1 r q : get_config w s = (tr, s1, r) -> s1 q = s q \/ s1 q = Some Dir.
Proof.
  unfold get_config, bind, look. destruct (isdir s (confdir w)).
  - cbn [ret]. destruct (load _) as [o|[|[|n]]|]; intros E; inversion E; subst; now left.
  - unfold mkdir. destruct (may w (confdir w) && negb (exists_ s (confdir w)) && isdir s (parent (confdir w))); [|intros E; inversion E; subst; now left].
    assert (upd (confdir w) Dir s q = s q \/ upd (confdir w) Dir s q = Some Dir) as H by (unfold upd; destruct (str_eqb q (confdir w)); auto). destruct (load _) as [o|[|[|n]]|]; intros E; inversion E; subst; exact H.
Qed.
(** everything that can come of adding a project *)
Lemma add_cases w name dir script s tr s' r : let d := project_dir w name dir in let f := script_file w d name script in d <> conf w -> f <> conf w -> add_project w name dir script s = (tr, s', r) ->
  match r with
  | Fine p => exists o t, load (content w s) = Done o /\ p = (d, f) /\ dump (set_item name (Lst [d; f]) o) = Ok t /\ s' (conf w) = Some (File t) /\ s' d = Some Dir /\ exists u, s' f = Some (File u) /\ (s f = Some (File u) \/ (s f = None /\ u = template w))
  | _ => s' (conf w) = s (conf w)
  end /\ Forall (fun x => x (conf w) = s (conf w) \/ exists o t n, load (content w s) = Done o /\ dump (set_item name (Lst [d; f]) o) = Ok t /\ x (conf w) = Some (File (firstn n t))) tr.
Proof.
  intros d f Nd Nf. pose proof (not_eq_sym Nd) as Nd'. pose proof (not_eq_sym Nf) as Nf'. unfold add_project. fold d. fold f. unfold bind at 1. destruct (get_config w s) as [[tr1 s1] r1] eqn:E1. destruct (config_cases w s tr1 s1 r1 E1) as (F1 & C1 & H1). pose proof (fun q => config_made w s tr1 s1 r1 q E1) as M1.
  set (P := fun x : fs => x (conf w) = s (conf w) \/ exists o t n, load (content w s) = Done o /\ dump (set_item name (Lst [d; f]) o) = Ok t /\ x (conf w) = Some (File (firstn n t))).
  assert (Forall P tr1) as F1' by (revert F1; apply Forall_impl; intros x Hx; now left).
  destruct r1 as [pc|e|]; [|intros E; inversion E; subst; split; [exact C1|exact F1']|intros E; inversion E; subst; split; [exact C1|exact F1']].
  assert (match pc with Some o => load (content w s) = Done o | None => True end) as Hl. { destruct H1 as [(H1 & _)|H1]; [discriminate|]. destruct (load (content w s)) as [o|[|[|n]]|]; inversion H1; subst; auto. }
  unfold bind at 1. destruct (look (fun s0 => if isdir s0 d then ret tt else mkdir w d) s1) as [[tr2 s2] r2] eqn:E2. destruct (dir_cases w d s1 tr2 s2 r2 E2) as (K2 & D2).
  assert (s2 (conf w) = s (conf w)) as C2 by (rewrite (K2 s2) by (first [now left|assumption]); exact C1).
  assert (Forall P tr2) as F2. { apply Forall_forall. intros x Ix. left. rewrite (K2 x) by (first [now right|assumption]). exact C1. }
  destruct r2 as [[]|e|]; [|intros E; inversion E; subst; split; [exact C2|apply Forall_app; now split]|intros E; inversion E; subst; split; [exact C2|apply Forall_app; now split]].
  unfold bind at 1. match goal with |- context [look ?g s2] => destruct (look g s2) as [[tr3 s3] r3] eqn:E3 end. destruct (script_cases w f s2 tr3 s3 r3 E3) as (K3 & D3).
  assert (s3 (conf w) = s (conf w)) as C3 by (rewrite (K3 s3) by (first [now left|assumption]); exact C2).
  assert (Forall P tr3) as F3. { apply Forall_forall. intros x Ix. left. rewrite (K3 x) by (first [now right|assumption]). exact C2. }
  assert (Forall P (tr1 ++ tr2 ++ tr3)) as F123 by (repeat (apply Forall_app; split); assumption).
  destruct r3 as [[]|e|]; [|intros E; inversion E; subst; split; [exact C3|exact F123]|intros E; inversion E; subst; split; [exact C3|exact F123]].
  destruct pc as [o|]; [|cbn [fail]; intros E; inversion E; subst; split; [exact C3|rewrite app_nil_r; exact F123]].
  unfold bind. destruct (write_config w (set_item name (Lst [d; f]) o) s3) as [[tr4 s4] r4] eqn:E4. destruct (write_config_cases w _ s3 tr4 s4 r4 E4) as (F4 & K4 & D4).
  assert (Forall P tr4) as F4'. { revert F4. apply Forall_impl. intros x [Hx|(t & n & Dt & Hx)]; [left; now rewrite Hx|]. right. exists o, t, n. auto. }
  assert (Forall P (tr1 ++ tr2 ++ tr3 ++ tr4)) as F1234 by (repeat (apply Forall_app; split); assumption).
  destruct r4 as [[]|e|]; cbn [ret]; intros E; inversion E; subst; clear E.
  - split; [|rewrite app_nil_r; exact F1234]. destruct D4 as (t & Dt & Ct & _). exists o, t. split; [exact Hl|]. split; [reflexivity|]. split; [exact Dt|]. split; [exact Ct|]. destruct D3 as (u & U1 & U2).
    assert (d <> f) as Ndf. { intros H. rewrite <- H in *. destruct U2 as [U2|(U2 & _)]; congruence. }
    split; [rewrite (K4 d Nd), (K3 s3) by (first [now left|assumption]); exact D2|]. exists u. split; [rewrite (K4 f Nf); exact U1|].
    assert (f <> d) as Nfd by (intros H; apply Ndf; now symmetry). assert (s2 f = s1 f) as E21 by (apply K2; [now left|assumption]). rewrite E21 in U2. destruct (M1 f) as [M|M]; rewrite M in U2; [exact U2|]. exfalso. destruct U2 as [U2|(U2 & _)]; congruence.
  - split; [exact C3|exact F1234].
  - split; [exact C3|exact F1234].
Qed.
(** C106: the returned directory and script are there; a script that was there is as before, another one is the template; the project is registered with them, every other one is as before; if it fails the registry is as before *)
Theorem add_project_result w s o name dir script tr s' r : let d := project_dir w name dir in let f := script_file w d name script in
  good w s o -> safe_key name -> storable d -> storable f -> d <> conf w -> f <> conf w -> add_project w name dir script s = (tr, s', r) ->
  (r = Fine (d, f) /\ s' d = Some Dir /\ (exists u, s' f = Some (File u) /\ (s f = Some (File u) \/ (s f = None /\ u = template w))) /\
   exists o', good w s' o' /\ at_key name o' = Some (Lst [d; f]) /\ forall k, k <> name -> at_key k o' = at_key k o)
  \/ ((exists e, r = Error e) /\ good w s' o /\ s' (conf w) = s (conf w)).
Proof.
  intros d f (Ld & S) Sk Sd Sf Nd Nf E. destruct (add_cases w name dir script s tr s' r Nd Nf E) as (H & _). destruct r as [p|e|].
  - left. destruct H as (o1 & t & L1 & -> & Dt & Ct & Hd & Hf). rewrite Ld in L1. inversion L1; subst o1. split; [reflexivity|]. split; [exact Hd|]. split; [exact Hf|].
    destruct (set_then_read o name (Lst [d; f]) S Sk) as (t' & o' & Dt' & Lt & S' & A1 & A2 & _); [exact (Forall_cons d Sd (Forall_cons f Sf (Forall_nil _)))|]. fold d in Dt. fold f in Dt. rewrite Dt' in Dt. inversion Dt; subst t'. exists o'. split; [|auto]. split; [|exact S']. unfold content. rewrite Ct. exact Lt.
  - right. split; [eauto|]. split; [|exact H]. split; [|exact S]. unfold content in *. now rewrite H.
  - exfalso. (* the file is one of the modelled ones *)
    unfold add_project in E. unfold bind at 1 in E. destruct (get_config w s) as [[tr1 s1] r1] eqn:E1. destruct (config_cases w s tr1 s1 r1 E1) as (_ & _ & H1). rewrite Ld in H1. destruct H1 as [(-> & _)| ->]; [discriminate|].
    unfold bind at 1 in E. unfold look at 1 in E.
    fold d f in E. destruct ((if isdir s1 d then ret tt else mkdir w d) s1) as [[tr2 s2] r2] eqn:E2. assert (r2 <> Outside) as N2. { destruct (isdir s1 d); [inversion E2; discriminate|]. unfold mkdir in E2. destruct (may w d && negb (exists_ s1 d) && isdir s1 (parent d)); inversion E2; discriminate. }
    destruct r2 as [[]|e|]; [|discriminate|contradiction]. unfold bind at 1 in E. unfold look at 1 in E.
    destruct ((if negb (exists_ s2 f) then write w f (template w) else if isdir s2 f then fail IOError else ret tt) s2) as [[tr3 s3] r3] eqn:E3. assert (r3 <> Outside) as N3. { destruct (negb (exists_ s2 f)); [unfold write in E3; destruct (may w f && negb (isdir s2 f) && isdir s2 (parent f)); inversion E3; discriminate|]. destruct (isdir s2 f); inversion E3; discriminate. }
    destruct r3 as [[]|e|]; [|discriminate|contradiction]. destruct (set_then_read o name (Lst [d; f]) S Sk) as (t' & o' & Dt' & _); [exact (Forall_cons d Sd (Forall_cons f Sf (Forall_nil _)))|]. unfold bind, write_config in E. rewrite Dt' in E. unfold write in E. destruct (may w (conf w) && negb (isdir s3 (conf w)) && isdir s3 (parent (conf w))); inversion E.
Qed.

(** C106: at every moment while a project is added the registry file is as before or the beginning of the new one *)
Theorem add_project_crash w s o name dir script tr s' r : let d := project_dir w name dir in let f := script_file w d name script in
  good w s o -> safe_key name -> storable d -> storable f -> d <> conf w -> f <> conf w -> add_project w name dir script s = (tr, s', r) ->
  exists t o', load (Some t) = Done o' /\ at_key name o' = Some (Lst [d; f]) /\ (forall k, k <> name -> at_key k o' = at_key k o) /\ forall x, In x tr -> x (conf w) = s (conf w) \/ exists n, x (conf w) = Some (File (firstn n t)).
Proof.
  intros d f (Ld & S) Sk Sd Sf Nd Nf E. destruct (add_cases w name dir script s tr s' r Nd Nf E) as (_ & H). destruct (set_then_read o name (Lst [d; f]) S Sk) as (t & o' & Dt & Lt & S' & A1 & A2 & _); [exact (Forall_cons d Sd (Forall_cons f Sf (Forall_nil _)))|].
  exists t, o'. split; [exact Lt|]. split; [exact A1|]. split; [exact A2|]. intros x Ix. rewrite Forall_forall in H. destruct (H x Ix) as [Hx|(o1 & t1 & n & L1 & D1 & Hx)]; [now left|]. right. exists n. rewrite Ld in L1. inversion L1; subst o1. fold d in D1. fold f in D1. rewrite Dt in D1. inversion D1; subst t1. exact Hx.
Qed.
(** C106: a project that is removed is gone and every other one is as before; one that is not registered is a KeyError and changes nothing *)
Theorem del_project_result w s o name tr s' r : good w s o -> del_project w name s = (tr, s', r) ->
  (r = Fine tt /\ at_key name o <> None /\ exists o', good w s' o' /\ at_key name o' = None /\ forall k, k <> name -> at_key k o' = at_key k o)
  \/ (exists e, r = Error e /\ good w s' o /\ s' (conf w) = s (conf w) /\ (at_key name o = None -> e = KeyError \/ e = OSError)).
Proof.
  intros (Ld & S) E. unfold del_project in E. unfold bind at 1 in E. destruct (get_config w s) as [[tr1 s1] r1] eqn:E1. destruct (config_cases w s tr1 s1 r1 E1) as (_ & C1 & H1). rewrite Ld in H1.
  assert (good w s1 o) as G1 by (split; [unfold content in *; now rewrite C1|exact S]).
  destruct H1 as [(-> & _)| ->]; [inversion E; subst; right; exists OSError; auto|].
  destruct (delete_then_read o name S) as [(A & D)|(o1 & t & o' & A & D & Dt & Lt & S' & A1 & A2)]; rewrite D in E.
  - cbn [fail] in E. inversion E; subst. right. exists KeyError. auto.
  - destruct (write_config w o1 s1) as [[tr2 s2] r2] eqn:E2. destruct (write_config_cases w o1 s1 tr2 s2 r2 E2) as (_ & K2 & D2). destruct r2 as [[]|e|]; inversion E; subst; clear E.
    + left. split; [reflexivity|]. split; [exact A|]. destruct D2 as (t2 & Dt2 & Ct & _). rewrite Dt in Dt2. inversion Dt2; subst t2. exists o'. split; [|auto]. split; [|exact S']. unfold content. rewrite Ct. exact Lt.
    + right. exists e. split; [reflexivity|]. split; [exact G1|]. split; [exact C1|]. intros; contradiction.
    + exfalso. unfold write_config in E2. rewrite Dt in E2. unfold write in E2. match type of E2 with context [if ?b then _ else _] => destruct b end; inversion E2.
Qed.
(** ** C107: histories *)
Inductive op := Add (name : str) (dir script : option str) | Remove (name : str).
Inductive event := Added (name : str) (d f : str) | Removed (name : str) | Failure (e : exn).
Definition perform (w : world) (x : op) (s : fs) : fs * event :=
  match x with
  | Add n d f => match add_project w n d f s with (_, s', Fine (d, f)) => (s', Added n d f) | (_, s', Error e) => (s', Failure e) | (_, s', Outside) => (s', Failure ConfigObjError) end
  | Remove n => match del_project w n s with (_, s', Fine _) => (s', Removed n) | (_, s', Error e) => (s', Failure e) | (_, s', Outside) => (s', Failure ConfigObjError) end
  end.
Fixpoint history (w : world) (l : list op) (s : fs) : fs * list event := match l with [] => (s, []) | x :: r => let (s1, e) := perform w x s in let (s2, es) := history w r s1 in (s2, e :: es) end.
(** what the user saw: the projects that should be there *)
Definition seen (m : str -> option value) (e : event) : str -> option value := match e with Added n d f => fun k => if str_eqb k n then Some (Lst [d; f]) else m k | Removed n => fun k => if str_eqb k n then None else m k | Failure _ => m end.
Definition valid (w : world) (x : op) : Prop := match x with Add n dir script => let d := project_dir w n dir in let f := script_file w d n script in safe_key n /\ storable d /\ storable f /\ d <> conf w /\ f <> conf w | Remove _ => True end.
Lemma history_good w l : forall s o, good w s o -> Forall (valid w) l -> exists o', good w (fst (history w l s)) o' /\ forall k, at_key k o' = fold_left seen (snd (history w l s)) (fun k => at_key k o) k.
Proof.
  assert (forall es m m', (forall k, m k = m' k) -> forall k : str, fold_left seen es m k = fold_left seen es m' k) as Ext.
  { induction es as [|e es IH]; intros m m' H; [exact H|]. cbn [fold_left]. apply IH. intros k. destruct e; cbn [seen]; [destruct (str_eqb k name); auto|destruct (str_eqb k name); auto|auto]. }
  induction l as [|x l IH]; intros s o G V; [exists o; split; [exact G|reflexivity]|]. inversion V as [|? ? Vx V']; subst. cbn [history].
  destruct (perform w x s) as [s1 e] eqn:P. destruct (history w l s1) as [s2 es] eqn:H. cbn [fst snd fold_left].
  assert (exists o1, good w s1 o1 /\ forall k, at_key k o1 = seen (fun k => at_key k o) e k) as (o1 & G1 & A1).
  { destruct x as [n dir script|n]; cbn [perform] in P.
    - destruct (add_project w n dir script s) as [[tr s'] r] eqn:E. destruct Vx as (V1 & V2 & V3 & V4 & V5). destruct (add_project_result w s o n dir script tr s' r G V1 V2 V3 V4 V5 E) as [(-> & _ & _ & o' & G' & B1 & B2)|((e' & ->) & G' & _)]; inversion P; subst.
      + exists o'. split; [exact G'|]. intros k. cbn [seen]. destruct (str_eqb k n) eqn:Ek; [apply str_eqb_spec in Ek; now subst|]. apply B2. intros ->. rewrite str_eqb_same in Ek. discriminate.
      + exists o. split; [exact G'|reflexivity].
    - destruct (del_project w n s) as [[tr s'] r] eqn:E. destruct (del_project_result w s o n tr s' r G E) as [(-> & _ & o' & G' & B1 & B2)|(e' & -> & G' & _)]; inversion P; subst.
      + exists o'. split; [exact G'|]. intros k. cbn [seen]. destruct (str_eqb k n) eqn:Ek; [apply str_eqb_spec in Ek; now subst|]. apply B2. intros ->. rewrite str_eqb_same in Ek. discriminate.
      + exists o. split; [exact G'|reflexivity]. }
  destruct (IH s1 o1 G1 V') as (o2 & G2 & A2). rewrite H in G2, A2. cbn [fst snd] in G2, A2. exists o2. split; [exact G2|]. intros k. rewrite A2. apply Ext. exact A1.
Qed.
Fixpoint listed (k : str) (l : list (str * value)) : option value := match l with [] => None | (k', v) :: r => if str_eqb k k' then Some v else listed k r end.
(** C107: with no registry at first, after any history of additions and removals, with whatever failures, get_projects lists exactly the projects whose addition succeeded and that were not removed since, with the directory and script last returned *)
Theorem projects_after_history w l s tr s' ps : s (conf w) = None -> Forall (valid w) l -> let (s1, es) := history w l s in get_projects w s1 = (tr, s', Fine ps) -> forall k, listed k ps = fold_left seen es (fun _ => None) k.
Proof.
  intros N V. destruct (history w l s) as [s1 es] eqn:H. intros E k. destruct no_file_is_empty as (o0 & L0 & _ & S0 & Z0). assert (good w s o0) as G0 by (split; [unfold content; now rewrite N|exact S0]).
  destruct (history_good w l s o0 G0 V) as (o1 & (L1 & S1) & A1). rewrite H in L1, A1. cbn [fst snd] in L1, A1.
  assert (ps = map (fun e => (ekey e, evalue e)) (entries o1)) as ->. { unfold get_projects, bind in E. destruct (get_config w s1) as [[tr1 s2] r1] eqn:E1. destruct (config_cases w s1 tr1 s2 r1 E1) as (_ & _ & H1). rewrite L1 in H1. destruct H1 as [(-> & _)| ->]; [discriminate|]. cbn [ret] in E. now inversion E. }
  assert (listed k (map (fun e => (ekey e, evalue e)) (entries o1)) = at_key k o1) as ->. { unfold at_key, said. clear. induction (entries o1) as [|e es IH]; [reflexivity|]. cbn [map listed value_of]. now rewrite IH. }
  rewrite A1. unfold at_key. rewrite Z0. reflexivity.
Qed.
