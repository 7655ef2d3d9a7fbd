(** * RegistryBFS: a shortest path search meeting the assumption made of networkx ([sp_ok] is satisfiable) *)
From Coq Require Import List ListDec Bool Arith Lia Wf_nat.
From Verif Require Import PyBase RegistryModel RegistryProofs.
Import ListNotations.
Open Scope nat_scope.

Definition ext (g : list (cls * cls)) (ps : list (list cls)) : list (list cls) :=
  flat_map (fun p => map (fun e => fst e :: p) (filter (fun e => snd e =? hd 0 p) g)) ps.
Fixpoint bfs (fuel : nat) (g : list (cls * cls)) (a : cls) (ps : list (list cls)) : @res (list cls) :=
  match find (fun p => hd 0 p =? a) ps with
  | Some p => Ok p
  | None => match fuel with O => Raise (UserExn 0) | S f => bfs f g a (ext g ps) end
  end.
Definition sp_bfs (g : list (cls * cls)) (a b : cls) : @res (list cls) := bfs (S (length g)) g a [[b]].

Definition level g b k ps := forall p, In p ps <-> length p = S k /\ last p b = b /\ chain g p.
Lemma last_cons_ne (x : cls) p b : p <> [] -> last (x :: p) b = last p b.
Proof. destruct p; [congruence|reflexivity]. Qed.
Lemma level_ext g b k ps : level g b k ps -> level g b (S k) (ext g ps).
Proof.
  intros H p. unfold ext. rewrite in_flat_map. split.
  - intros (q & Hq & Hp). apply in_map_iff in Hp. destruct Hp as ((x, y) & <- & Hf). apply filter_In in Hf. destruct Hf as (Hg & E). cbn in E |- *. apply Nat.eqb_eq in E.
    apply H in Hq. destruct Hq as (L & La & C). destruct q as [|z q]; [discriminate|]. cbn in E. subst z. split; [now rewrite L|]. split; [exact La|]. split; auto.
  - intros (L & La & C). destruct p as [|x p]; [discriminate|]. destruct p as [|y p]; [discriminate|]. destruct C as (Hi & C). exists (y :: p). split.
    + apply H. split; [cbn in *; lia|]. split; auto.
    + apply in_map_iff. exists (x, y). split; auto. apply filter_In. split; auto. cbn. apply Nat.eqb_refl.
Qed.
Lemma level0 g b : level g b 0 [[b]].
Proof.
  intros p. split.
  - intros [<-|[]]. cbn. auto.
  - intros (L & La & _). destruct p as [|x [|y p]]; try discriminate. cbn in La. subst. left. reflexivity.
Qed.
Lemma is_path_alt g a b p : is_path g a b p <-> p <> [] /\ hd_error p = Some a /\ last p b = b /\ chain g p.
Proof.
  unfold is_path. assert (p <> [] -> last p a = last p b) as E.
  { clear. induction p as [|x p IH]; [congruence|]. intros _. destruct p as [|y p]; [reflexivity|]. apply IH. discriminate. }
  split; [intros (A & B & D & F)|intros (D & A & B & F)]; specialize (E D); repeat split; auto; congruence.
Qed.
Lemma bfs_sound fuel : forall g a b k ps p, level g b k ps -> (forall q, is_path g a b q -> length q > k) -> bfs fuel g a ps = Ok p -> shortest g a b p.
Proof.
  assert (F : forall g a b k ps p, level g b k ps -> (forall q, is_path g a b q -> length q > k) -> find (fun p => hd 0 p =? a) ps = Some p -> shortest g a b p).
  { intros g a b k ps p Hl Hm E. apply find_some in E. destruct E as (Hi & E). apply Nat.eqb_eq in E. apply Hl in Hi. destruct Hi as (L & La & C).
    destruct p as [|x p]; [discriminate|]. cbn in E. subst x. split; [apply is_path_alt; repeat split; auto; discriminate|]. intros q Hq. specialize (Hm q Hq). lia. }
  induction fuel as [|f IH]; intros g a b k ps p Hl Hm E; cbn [bfs] in E; destruct (find (fun p : list nat => hd 0 p =? a) ps) as [p'|] eqn:Fi; try (injection E as ->; eapply F; eauto; fail); [discriminate|].
  eapply (IH g a b (S k)); [apply level_ext; eauto| |exact E]. intros q Hq. specialize (Hm q Hq). assert (length q <> S k); [|lia]. intros L.
  apply is_path_alt in Hq. destruct Hq as (Hn & A & B & D). assert (In q ps) as Hi by (apply Hl; auto). eapply find_none in Fi; [|exact Hi]. destruct q as [|x q]; [congruence|].
  injection A as ->. cbn in Fi. rewrite Nat.eqb_refl in Fi. discriminate.
Qed.
Lemma bfs_complete fuel : forall g a b k ps q, level g b k ps -> is_path g a b q -> S k <= length q <= S k + fuel -> exists p, bfs fuel g a ps = Ok p.
Proof.
  induction fuel as [|f IH]; intros g a b k ps q Hl Hq Hk; cbn [bfs]; destruct (find (fun p : list nat => hd 0 p =? a) ps) as [p'|] eqn:Fi; eauto.
  - exfalso. pose proof Hq as Hq'. apply is_path_alt in Hq'. destruct Hq' as (Hn & A & B & D). assert (In q ps) as Hi by (apply Hl; repeat split; auto; lia).
    eapply find_none in Fi; [|exact Hi]. destruct q as [|x q]; [congruence|]. injection A as ->. cbn in Fi. rewrite Nat.eqb_refl in Fi. discriminate.
  - destruct (Nat.eq_dec (length q) (S k)) as [E|N].
    + exfalso. pose proof Hq as Hq'. apply is_path_alt in Hq'. destruct Hq' as (Hn & A & B & D). assert (In q ps) as Hi by (apply Hl; repeat split; auto).
      eapply find_none in Fi; [|exact Hi]. destruct q as [|x q]; [congruence|]. injection A as ->. cbn in Fi. rewrite Nat.eqb_refl in Fi. discriminate.
    + apply (IH g a b (S k) (ext g ps) q); [now apply level_ext|exact Hq|lia].
Qed.
(** loops can be cut out *)
Lemma chain_app g p x q : chain g (p ++ x :: q) <-> chain g (p ++ [x]) /\ chain g (x :: q).
Proof.
  induction p as [|y p IH]; cbn [app]; [cbn; tauto|]. destruct p as [|z p]; cbn [app] in *; [|cbn [chain] in *; cbn [app]; cbn; cbn in IH; tauto]. cbn; tauto.
Qed.
Lemma last_app_ne (p q : list cls) b : q <> [] -> last (p ++ q) b = last q b.
Proof. intros H. induction p as [|x p IH]; [reflexivity|]. cbn [app]. rewrite last_cons_ne; [exact IH|]. intros E. apply app_eq_nil in E. tauto. Qed.
Lemma dup_split (p : list cls) : ~ NoDup p -> exists p1 x p2 p3, p = p1 ++ x :: p2 ++ x :: p3.
Proof.
  induction p as [|x p IH]; intros H; [exfalso; apply H; constructor|]. destruct (in_dec Nat.eq_dec x p) as [Hi|Hn].
  - apply in_split in Hi. destruct Hi as (p2 & p3 & ->). exists [], x, p2, p3. reflexivity.
  - destruct IH as (p1 & y & p2 & p3 & ->); [intros Hd; apply H; constructor; auto|]. exists (x :: p1), y, p2, p3. reflexivity.
Qed.
Lemma simple_path g a b q : is_path g a b q -> exists p, is_path g a b p /\ NoDup p.
Proof.
  induction q as [q IH] using (well_founded_induction (well_founded_ltof _ (@length cls))). intros H.
  destruct (ListDec.NoDup_dec Nat.eq_dec q) as [|N]; [eauto|]. apply dup_split in N. destruct N as (p1 & x & p2 & p3 & ->).
  apply (IH (p1 ++ x :: p3)).
  - unfold ltof. rewrite !app_length. cbn. rewrite app_length. cbn. lia.
  - apply is_path_alt in H. destruct H as (_ & A & B & D). apply is_path_alt. split; [destruct p1; discriminate|]. split; [destruct p1; exact A|]. split.
    + rewrite last_app_ne in B by discriminate. rewrite last_app_ne by discriminate. change (x :: p2 ++ x :: p3) with ((x :: p2) ++ x :: p3) in B. rewrite last_app_ne in B by discriminate. exact B.
    + apply chain_app in D. destruct D as (D1 & D2). apply chain_app. split; [exact D1|]. change (x :: p2 ++ x :: p3) with ((x :: p2) ++ x :: p3) in D2. apply chain_app in D2. tauto.
Qed.
Lemma chain_targets g p : forall x, chain g (x :: p) -> incl p (map snd g).
Proof.
  induction p as [|y p IH]; intros x H; [intros ? []|]. destruct H as (Hi & C). intros z [<-|Hz]; [apply in_map_iff; exists (x, y); auto|]. eapply IH; eauto.
Qed.
Theorem sp_bfs_ok : forall e, sp e = sp_bfs -> sp_ok e.
Proof.
  intros e He g a b Hab. rewrite He. unfold sp_bfs. split.
  - intros p Hp. apply (bfs_sound (S (length g)) g a b 0 [[b]] p); [apply level0| |exact Hp]. intros q (_ & _ & Hn & _). destruct q; [congruence|cbn; lia].
  - intros (q & Hq). destruct (simple_path g a b q Hq) as (p & Hp & Nd). apply (bfs_complete (S (length g)) g a b 0 [[b]] p); [apply level0|exact Hp|].
    destruct Hp as (A & _ & _ & D). destruct p as [|x p]; [discriminate|]. inversion Nd as [|? ? _ Nd']; subst. pose proof (NoDup_incl_length Nd' (chain_targets g p x D)) as L. rewrite map_length in L. cbn. lia.
Qed.
Print Assumptions sp_bfs_ok.
