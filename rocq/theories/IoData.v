(** * IoData: the cache of get_data (C76) *)
From Coq Require Import List Bool ZArith String Ascii Arith Lia.
From Verif Require Import PyBase PubModel IoModel.
Import ListNotations.

Section Cache.
Variable urlname : nat -> option nat.

(** ** Specification: the log of downloads, the latest first: URL, file name, content *)
Definition log := list (nat * nat * str).
Fixpoint last_of (u : nat) (d : log) : option (nat * str) := match d with [] => None | (v, f, c) :: d => if Nat.eq_dec v u then Some (f, c) else last_of u d end.
Fixpoint last_in (f : nat) (d : log) : option str := match d with [] => None | (_, g, c) :: d => if Nat.eq_dec g f then Some c else last_in f d end.
(** the file name: the one asked for, else the server's, else the URL's *)
Definition chosen (u : nat) (lf disp : option nat) : option nat := match lf with Some f => Some f | None => match disp with Some f => Some f | None => urlname u end end.
Definition known (m : mode) (u : nat) (d : log) : bool := match m with Always => match last_of u d with Some _ => true | None => false end | _ => false end.
Definition log_step (d : log) (q : request) : log :=
  match q with
  | Url Never _ _ _ | Local _ => d
  | Url m u lf (Reply disp html data) => if known m u d then d else match chosen u lf disp with Some f => (u, f, data) :: d | None => d end
  | Url _ _ _ Unreachable => d
  end.
Definition logged (l : list request) : log := fold_left log_step l [].
Definition store_step (s : store) (q : request) : store := fst (get_data urlname q s).
Definition served (l : list request) : store := fold_left store_step l no_store.

Definition agrees (d : log) (s : store) : Prop := (forall u, urlmap s u = option_map fst (last_of u d)) /\ (forall f, files s f = last_in f d).

Lemma acts_app es es' s : acts (es ++ es') s = acts es' (acts es s).
Proof. apply fold_left_app. Qed.
Lemma act_append f a c s : files s f = Some c -> files (act s (Append f a)) f = Some (c ++ [a]) /\ (forall g, g <> f -> files (act s (Append f a)) g = files s g) /\ urlmap (act s (Append f a)) = urlmap s.
Proof.
  intros H. cbn [act files urlmap]. unfold upd. rewrite Nat.eqb_refl, H. split; [reflexivity|]. split; [|reflexivity]. intros g N. now destruct (Nat.eqb_spec g f).
Qed.
Lemma acts_append f data c s : files s f = Some c -> let s' := acts (map (Append f) data) s in files s' f = Some (c ++ data) /\ (forall g, g <> f -> files s' g = files s g) /\ urlmap s' = urlmap s.
Proof.
  revert c s. induction data as [|a data IH]; intros c s H; cbn [map]; [unfold acts; cbn [fold_left]; rewrite app_nil_r; auto|].
  change (acts (Append f a :: map (Append f) data) s) with (acts (map (Append f) data) (act s (Append f a))). destruct (act_append f a c s H) as (A & B & C). destruct (IH _ _ A) as (A' & B' & C'). rewrite <- app_assoc in A'. cbn zeta. split; [exact A'|]. split; [|congruence]. intros g N. rewrite B' by trivial. now apply B.
Qed.
Lemma truncated f s : files (act s (Truncate f)) f = Some [] /\ (forall g, g <> f -> files (act s (Truncate f)) g = files s g) /\ urlmap (act s (Truncate f)) = urlmap s.
Proof. cbn [act files urlmap]. unfold upd. rewrite Nat.eqb_refl. split; [reflexivity|]. split; [|reflexivity]. intros g N. now destruct (Nat.eqb_spec g f). Qed.
Lemma download_effects u f data s : let s' := acts (Truncate f :: map (Append f) data ++ [Remember u f]) s in
  (forall v, urlmap s' v = if Nat.eqb v u then Some f else urlmap s v) /\ (forall g, files s' g = if Nat.eqb g f then Some data else files s g).
Proof.
  change (acts (Truncate f :: map (Append f) data ++ [Remember u f]) s) with (acts (map (Append f) data ++ [Remember u f]) (act s (Truncate f))). rewrite acts_app. destruct (truncated f s) as (A & B & C). destruct (acts_append f data [] _ A) as (A' & B' & C'). set (s2 := acts (map (Append f) data) (act s (Truncate f))) in *. cbn [acts fold_left act urlmap files]. split.
  - intros v. unfold upd. rewrite C', C. reflexivity.
  - intros g. destruct (Nat.eqb_spec g f) as [->|N]; [exact A'|]. rewrite B', B by trivial. reflexivity.
Qed.
Lemma in_last_in u d f c : last_of u d = Some (f, c) -> exists c', last_in f d = Some c'.
Proof.
  induction d as [|[[v g] c'] d IH]; [discriminate|]. cbn [last_of last_in]. destruct (Nat.eq_dec v u) as [->|N].
  - intros H. injection H as -> ->. destruct (Nat.eq_dec f f); [eauto|contradiction].
  - intros H. destruct (Nat.eq_dec g f); eauto.
Qed.
Lemma stored_known d s u : agrees d s -> stored u s = match last_of u d with Some _ => true | None => false end.
Proof.
  intros [A B]. unfold stored. rewrite A. destruct (last_of u d) as [[f c]|] eqn:E; [|reflexivity]. cbn [option_map fst]. rewrite B. destruct (in_last_in u d f c E) as (c' & ->). reflexivity.
Qed.
Lemma local_chosen u lf disp html : local_name urlname u lf disp html = match chosen u lf disp with Some f => Ok f | None => if html then Raise NameError else Raise URLError end.
Proof. unfold local_name, chosen. destruct lf; [reflexivity|]. destruct disp; reflexivity. Qed.
(** what a request is answered, given the log *)
Definition answer (d : log) (q : request) : @res str :=
  match q with
  | Local f => match last_in f d with Some c => Ok c | None => Raise IOError end
  | Url Never _ _ r => match r with Unreachable => Raise URLError | Reply _ _ data => Ok data end
  | Url m u lf r =>
      if known m u d then match last_of u d with Some (f, _) => match last_in f d with Some c => Ok c | None => Raise IOError end | None => Raise KeyError end
      else match r with
           | Unreachable => Raise URLError
           | Reply disp html data => match chosen u lf disp with Some _ => Ok data | None => if html then Raise NameError else Raise URLError end
           end
  end.
Lemma step_agrees d s q : agrees d s -> agrees (log_step d q) (store_step s q) /\ snd (get_data urlname q s) = answer d q.
Proof.
  intros H. destruct H as [A B] eqn:HH. clear HH. unfold store_step. destruct q as [f|m u lf r]; [cbn [get_data fst snd log_step answer]; unfold read; rewrite B; split; [exact H|reflexivity]|].
  assert (N : m <> Never -> needed m u s = negb (known m u d)). { intros M. unfold needed, known. destruct m; [now rewrite (stored_known d s)|congruence|reflexivity]. }
  destruct m; [| cbn [get_data fst snd log_step answer]; destruct r; (split; [exact H|reflexivity]) |]; cbn [get_data]; unfold plan; rewrite N by discriminate.
  - destruct (known Always u d) eqn:K; cbn [negb].
    + cbn [acts fold_left fst snd log_step answer]. rewrite K. rewrite A. unfold known in K. destruct (last_of u d) as [[f c]|] eqn:E; [|discriminate]. cbn [option_map fst]. unfold read. rewrite B. destruct r; (split; [exact H|reflexivity]).
    + cbn [log_step answer]. rewrite K. destruct r as [|disp html data]; [cbn [fst snd]; split; [exact H|reflexivity]|]. rewrite local_chosen. destruct (chosen u lf disp) as [f|]; [|destruct html; cbn [fst snd]; (split; [exact H|reflexivity])]. cbn [fst snd]. destruct (download_effects u f data s) as (E1 & E2). split.
      * split; [intros v; rewrite E1|intros g; rewrite E2]; cbn [last_of last_in]; rewrite Nat.eqb_sym; [destruct (Nat.eqb_spec u v), (Nat.eq_dec u v)|destruct (Nat.eqb_spec f g), (Nat.eq_dec f g)]; try contradiction; try reflexivity; auto.
      * rewrite E1, Nat.eqb_refl. unfold read. now rewrite E2, Nat.eqb_refl.
  - cbn [known negb log_step answer]. destruct r as [|disp html data]; [cbn [fst snd]; split; [exact H|reflexivity]|]. rewrite local_chosen. destruct (chosen u lf disp) as [f|]; [|destruct html; cbn [fst snd]; (split; [exact H|reflexivity])]. cbn [fst snd]. destruct (download_effects u f data s) as (E1 & E2). split.
      * split; [intros v; rewrite E1|intros g; rewrite E2]; cbn [last_of last_in]; rewrite Nat.eqb_sym; [destruct (Nat.eqb_spec u v), (Nat.eq_dec u v)|destruct (Nat.eqb_spec f g), (Nat.eq_dec f g)]; try contradiction; try reflexivity; auto.
      * rewrite E1, Nat.eqb_refl. unfold read. now rewrite E2, Nat.eqb_refl.
Qed.
Lemma history_agrees l : agrees (logged l) (served l).
Proof.
  unfold logged, served. assert (G : forall d s, agrees d s -> agrees (fold_left log_step l d) (fold_left store_step l s)). { induction l as [|q l IH]; intros d s H; [exact H|]. cbn [fold_left]. apply IH. now apply step_agrees. } apply G. split; reflexivity.
Qed.
(** after any history of requests, every request is answered as the log says *)
Theorem C76_history : forall l q, snd (get_data urlname q (served l)) = answer (logged l) q.
Proof. intros l q. now apply step_agrees, history_agrees. Qed.
(** file names are not shared by different URLs *)
Definition separate (d : log) : Prop := forall u v f c c', In (u, f, c) d -> In (v, f, c') d -> u = v.
Lemma last_of_in u d f c : last_of u d = Some (f, c) -> In (u, f, c) d.
Proof. induction d as [|[[v g] c'] d IH]; [discriminate|]. cbn [last_of]. destruct (Nat.eq_dec v u) as [->|N]; intros H; [injection H as -> ->; now left|right; auto]. Qed.
Lemma own_file u d f c : separate d -> last_of u d = Some (f, c) -> last_in f d = Some c.
Proof.
  intros S. assert (S' : forall v c', In (v, f, c') d -> last_of u d = Some (f, c) -> v = u) by (intros v c' I E; apply last_of_in in E; eapply S; eauto). clear S.
  induction d as [|[[v g] c'] d IH]; [discriminate|]. cbn [last_of last_in] in *. destruct (Nat.eq_dec v u) as [->|N].
  - intros H. injection H as -> ->. destruct (Nat.eq_dec f f); [reflexivity|contradiction].
  - intros H. destruct (Nat.eq_dec g f) as [->|Ng]; [exfalso; apply N; now apply (S' v c' (or_introl eq_refl))|]. apply IH; trivial. intros w c'' I E. eapply S'; [right; exact I|exact E].
Qed.
(** a URL that was downloaded is answered with what was downloaded last, from the disk (whatever the server would answer now), and nothing changes *)
Theorem C76_cached : forall l u f c lf r, separate (logged l) -> last_of u (logged l) = Some (f, c) ->
  get_data urlname (Url Always u lf r) (served l) = (served l, Ok c).
Proof.
  intros l u f c lf r S E. pose proof (history_agrees l) as H. destruct (step_agrees _ _ (Url Always u lf r) H) as [_ Q]. cbn [get_data] in *. unfold plan, needed in *. rewrite (stored_known _ _ u H), E in *. cbn [negb acts fold_left snd answer known] in *. rewrite E in Q. rewrite (own_file u _ f c S E) in Q. now rewrite Q.
Qed.
(** a new URL, or one refreshed, is answered with the server's data, which then are kept *)
Theorem C76_download : forall l m u lf disp html data f, m <> Never -> m = Refresh \/ last_of u (logged l) = None -> chosen u lf disp = Some f ->
  snd (get_data urlname (Url m u lf (Reply disp html data)) (served l)) = Ok data /\ forall lf' r', get_data urlname (Url Always u lf' r') (served (l ++ [Url m u lf (Reply disp html data)])) = (served (l ++ [Url m u lf (Reply disp html data)]), Ok data).
Proof.
  intros l m u lf disp html data f M N C. assert (K : known m u (logged l) = false) by (destruct N as [-> | N]; [reflexivity|unfold known; rewrite N; now destruct m]). split.
  - rewrite C76_history. cbn [answer]. rewrite K, C. now destruct m.
  - intros lf' r'. set (q := Url m u lf (Reply disp html data)). assert (L : logged (l ++ [q]) = (u, f, data) :: logged l). { unfold logged. rewrite fold_left_app. fold (logged l). cbn [fold_left q log_step]. rewrite K, C. now destruct m. }
    pose proof (history_agrees (l ++ [q])) as H. rewrite L in H. destruct (step_agrees _ _ (Url Always u lf' r') H) as [_ Q]. cbn [get_data] in *. unfold plan, needed in *. rewrite (stored_known _ _ u H) in *. cbn [last_of] in *. destruct (Nat.eq_dec u u); [|contradiction]. cbn [negb acts fold_left snd answer known last_of last_in] in *. destruct (Nat.eq_dec u u); [|contradiction]. destruct (Nat.eq_dec f f); [|contradiction]. now rewrite Q.
Qed.
(** a failed download changes nothing and is an error, even if an old copy could be used *)
Theorem C76_failure : forall m u lf s, m = Refresh \/ m = Never \/ stored u s = false -> get_data urlname (Url m u lf Unreachable) s = (s, Raise URLError).
Proof. intros m u lf s H. destruct m; cbn [get_data]; [|reflexivity|]; unfold plan, needed; [|reflexivity]. destruct H as [H|[H|H]]; try discriminate. rewrite H. reflexivity. Qed.
(** without storing, nothing is changed on the disk *)
Theorem C76_never : forall u lf r s, fst (get_data urlname (Url Never u lf r) s) = s.
Proof. reflexivity. Qed.
(** ** the program may stop at any point of a request *)
Lemma crash_frame k m u lf r s : let s' := crash urlname k (Url m u lf r) s in (forall v, v <> u -> urlmap s' v = urlmap s v) /\ (forall g, (forall disp html data, r = Reply disp html data -> chosen u lf disp <> Some g) -> files s' g = files s g).
Proof.
  cbn zeta. assert (T : (forall v : nat, v <> u -> urlmap s v = urlmap s v) /\ (forall g, (forall disp html data, r = Reply disp html data -> chosen u lf disp <> Some g) -> files s g = files s g)) by now split.
  assert (D : forall f data disp html, r = Reply disp html data -> chosen u lf disp = Some f -> (forall v : nat, v <> u -> urlmap (acts (firstn k (Truncate f :: map (Append f) data ++ [Remember u f])) s) v = urlmap s v) /\ (forall g, (forall disp html data, r = Reply disp html data -> chosen u lf disp <> Some g) -> files (acts (firstn k (Truncate f :: map (Append f) data ++ [Remember u f])) s) g = files s g)).
  { intros f data disp html E C. assert (I : forall es s, incl es (Truncate f :: map (Append f) data ++ [Remember u f]) -> (forall v : nat, v <> u -> urlmap (acts es s) v = urlmap s v) /\ (forall g, g <> f -> files (acts es s) g = files s g)).
    { induction es as [|e es IH]; intros s0 I; [now split|]. change (acts (e :: es) s0) with (acts es (act s0 e)). destruct (IH (act s0 e)) as [I1 I2]; [intros x X; apply I; now right|]. assert (Ie : e = Truncate f \/ (exists a, e = Append f a) \/ e = Remember u f). { destruct (I e (or_introl eq_refl)) as [<-|X]; [now left|]. apply in_app_or in X. destruct X as [X|[<-|[]]]; [|auto]. apply in_map_iff in X. destruct X as (a & <- & _). eauto. }
      split; [intros v N; rewrite I1 by trivial|intros g N; rewrite I2 by trivial]; destruct Ie as [-> | [[a ->] | ->]]; cbn [act urlmap files]; unfold upd; try reflexivity; [now destruct (Nat.eqb_spec v u)|now destruct (Nat.eqb_spec g f)|now destruct (Nat.eqb_spec g f)]. }
    destruct (I (firstn k (Truncate f :: map (Append f) data ++ [Remember u f])) s) as [I1 I2]; [intros x X; rewrite <- (firstn_skipn k); apply in_or_app; now left|]. split; [exact I1|]. intros g G. apply I2. intros ->. now apply (G disp html data E). }
  unfold crash. destruct m; [|exact T|]; unfold plan; (destruct (needed _ u s); [|cbn [firstn]; destruct k; exact T]); (destruct r as [|disp html data]; [exact T|]); rewrite local_chosen; (destruct (chosen u lf disp) as [f|] eqn:C; [|destruct html; exact T]); now apply (D f data disp html).
Qed.
(** other URLs, kept in other files, are answered as before *)
Theorem C76_crash_others : forall l k m u lf r v f c lf' r', separate (logged l) -> last_of v (logged l) = Some (f, c) -> v <> u -> (forall disp html data, r = Reply disp html data -> chosen u lf disp <> Some f) ->
  snd (get_data urlname (Url Always v lf' r') (crash urlname k (Url m u lf r) (served l))) = Ok c.
Proof.
  intros l k m u lf r v f c lf' r' S E N F. destruct (crash_frame k m u lf r (served l)) as [C1 C2]. set (s' := crash urlname k (Url m u lf r) (served l)) in *. destruct (history_agrees l) as [A B].
  assert (U : urlmap s' v = Some f) by (rewrite C1, A, E by trivial; reflexivity). assert (W : files s' f = Some c) by (rewrite C2, B by trivial; now apply own_file with v). cbn [get_data]. unfold plan, needed, stored. rewrite U, W. cbn [negb acts fold_left snd]. rewrite U. unfold read. now rewrite W.
Qed.
(** a first download that was stopped is done again *)
Theorem C76_crash_first : forall l k m u lf disp html data lf' disp' html' data' f', last_of u (logged l) = None -> (k <= List.length data + 1)%nat -> chosen u lf' disp' = Some f' ->
  snd (get_data urlname (Url Always u lf' (Reply disp' html' data')) (crash urlname k (Url m u lf (Reply disp html data)) (served l))) = Ok data'.
Proof.
  intros l k m u lf disp html data lf' disp' html' data' f' E K C. set (s' := crash urlname k (Url m u lf (Reply disp html data)) (served l)). assert (U : urlmap s' u = None).
  { unfold s', crash. destruct (history_agrees l) as [A _]. assert (Z : urlmap (served l) u = None) by now rewrite A, E. assert (D : forall f, urlmap (acts (firstn k (Truncate f :: map (Append f) data ++ [Remember u f])) (served l)) u = None).
    { intros f. assert (Fi : firstn k (Truncate f :: map (Append f) data ++ [Remember u f]) = firstn k (Truncate f :: map (Append f) data)). { rewrite app_comm_cons, firstn_app. cbn [List.length]. rewrite map_length. replace (k - S (List.length data))%nat with 0%nat by lia. cbn [firstn]. apply app_nil_r. }
      rewrite Fi. assert (I : forall es s, (forall x, In x es -> In x (Truncate f :: map (Append f) data)) -> urlmap (acts es s) u = urlmap s u). { induction es as [|e es IH]; intros s I; [reflexivity|]. change (acts (e :: es) s) with (acts es (act s e)). rewrite IH by (intros x X; apply I; now right). destruct (I e (or_introl eq_refl)) as [<-|X]; [reflexivity|]. apply in_map_iff in X. destruct X as (a & <- & _). reflexivity. }
      rewrite I; [exact Z|]. intros x X. rewrite <- (firstn_skipn k). apply in_or_app. now left. }
    destruct m; [|exact Z|]; unfold plan; (destruct (needed _ u (served l)); [|cbn [firstn]; destruct k; exact Z]); rewrite local_chosen; (destruct (chosen u lf disp) as [f|]; [apply D|destruct html; exact Z]). }
  cbn [get_data]. unfold plan, needed, stored. rewrite U. cbn [negb]. rewrite local_chosen, C. cbn [snd]. destruct (download_effects u f' data' s') as (E1 & E2). rewrite E1, Nat.eqb_refl. unfold read. now rewrite E2, Nat.eqb_refl.
Qed.
End Cache.

(** a refresh that was stopped leaves a part of the data, which is then taken for the whole *)
Theorem C76_crash_refresh_refuted : exists urlname l k q u c, (k < 10)%nat /\ separate (logged urlname l) /\ last_of u (logged urlname l) <> None /\ c <> L "new" /\ c <> L "old" /\ q = Url Refresh u None (Reply None false (L "new")) /\
  snd (get_data urlname (Url Always u None Unreachable) (crash urlname k q (served urlname l))) = Ok c.
Proof.
  exists (fun u => Some u), [Url Always 0 None (Reply None false (L "old"))], 2%nat. eexists. exists 0%nat. eexists. split; [lia|]. split; [intros u v f c c' [E|[]] [E'|[]]; congruence|]. split; [discriminate|]. repeat match goal with |- _ /\ _ => split end; [| |reflexivity|reflexivity]; vm_compute; discriminate.
Qed.
(** two URLs whose paths end alike (or to which the server gives the same name) are confused *)
Theorem C76_collision_refuted : exists urlname u v, u <> v /\ let l := [Url Always u None (Reply None false (L "first")); Url Always v None (Reply None false (L "second"))] in
  snd (get_data urlname (Url Always u None (Reply None false (L "first"))) (served urlname l)) = Ok (L "second").
Proof. exists (fun _ => Some 0%nat), 1%nat, 2%nat. split; [discriminate|]. reflexivity. Qed.
(** a page without a name in its URL cannot be stored: the title is looked for with an undefined name *)
Theorem C76_title_refuted : forall urlname u data s, urlname u = None -> stored u s = false -> get_data urlname (Url Always u None (Reply None true data)) s = (s, Raise NameError).
Proof. intros urlname u data s H K. cbn [get_data]. unfold plan, needed, local_name. rewrite K, H. reflexivity. Qed.
(** the name asked for has no effect on data that are stored already *)
Theorem C76_localfn_refuted : exists urlname l u f, snd (get_data urlname (Url Always u (Some f) Unreachable) (served urlname l)) = Ok (L "data") /\ snd (get_data urlname (Local f) (served urlname (l ++ [Url Always u (Some f) Unreachable]))) = Raise IOError.
Proof. exists (fun u => Some u), [Url Always 0 None (Reply None false (L "data"))], 0%nat, 7%nat. split; reflexivity. Qed.
Example C76_nonvacuous : let l := [Url Always 1 None (Reply None false (L "a")); Url Refresh 2 (Some 5%nat) (Reply None false (L "b"))] in separate (logged (fun u => Some u) l) /\ last_of 1 (logged (fun u => Some u) l) = Some (1%nat, L "a") /\ last_of 2 (logged (fun u => Some u) l) = Some (5%nat, L "b") /\ last_of 3 (logged (fun u => Some u) l) = None.
Proof. split; [|repeat split]. intros u v f c c' H H'. cbn in H, H'. destruct H as [H|[H|[]]], H' as [H'|[H'|[]]]; congruence. Qed.
