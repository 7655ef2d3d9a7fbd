(** * CfgRx: how the expressions read what is written (C105) *)
From Coq Require Import List Bool Arith Ascii String Lia.
From Verif Require Import PyBase PubModel IoColumns CfgModel.
Import ListNotations.

Definition prv (pr : option ascii) (w : str) : option ascii := fold_left (fun _ a => Some a) w pr.
Lemma is_eq x a : is x a = true <-> a = x. Proof. unfold is. apply Ascii.eqb_eq. Qed.
Lemma is_neq x a : is x a = false <-> a <> x. Proof. unfold is. apply Ascii.eqb_neq. Qed.
Lemma is_refl x : is x x = true. Proof. now apply is_eq. Qed.
Lemma none_of_spec l a : none_of l a = true <-> ~ In a l.
Proof. unfold none_of. rewrite negb_true_iff. split.
  - intros H I'. assert (existsb (is a) l = true) by (apply existsb_exists; exists a; split; [exact I'|apply is_refl]). congruence.
  - intros N. destruct (existsb (is a) l) eqn:E; [|reflexivity]. apply existsb_exists in E. destruct E as (b & I' & E). apply is_eq in E. subst. contradiction.
Qed.
Lemma none_of_false l a : none_of l a = false <-> In a l.
Proof. rewrite <- (negb_involutive (none_of l a)), negb_false_iff. split.
  - intros H. destruct (in_dec ascii_dec a l) as [I'|N]; [exact I'|]. apply none_of_spec in N. rewrite N in H. discriminate.
  - intros I'. destruct (none_of l a) eqn:E; [|reflexivity]. apply none_of_spec in E. contradiction.
Qed.
Lemma mem_spec a s : mem a s = true <-> In a s.
Proof. unfold mem. rewrite existsb_exists. split; [intros (b & I' & E); apply is_eq in E; now subst|intros I'; exists a; split; [exact I'|apply is_refl]]. Qed.
Lemma mem_false a s : mem a s = false <-> ~ In a s.
Proof. rewrite <- mem_spec. destruct (mem a s); split; intuition congruence. Qed.
Lemma dot_spec a : dot a = true <-> a <> nl.
Proof. unfold dot. rewrite negb_true_iff. apply is_neq. Qed.
Section X.
Context {X : Type}.
Implicit Types (k : @kont X) (x : X).
Lemma many_take p w t : forall pr c k x, forallb p w = true -> match t with a :: _ => p a = false | [] => True end -> k (prv pr w) t c = Some x -> many p pr (w ++ t) c k = Some x.
Proof.
  induction w as [|a w IH]; intros pr c k x P T E.
  - cbn [app prv fold_left] in *. destruct t as [|b t]; cbn [many]; [exact E|]. now rewrite T.
  - cbn [forallb] in P. apply andb_true_iff in P. destruct P as (Pa & P). cbn [app many]. rewrite Pa. rewrite (IH (Some a) c k x P T); [reflexivity|]. exact E.
Qed.
Lemma many_none p s : forall pr c k, (forall w t pr', s = w ++ t -> forallb p w = true -> k pr' t c = None) -> many p pr s c k = None.
Proof.
  induction s as [|a s IH]; intros pr c k H; cbn [many]; [apply (H [] []); reflexivity|]. destruct (p a) eqn:P; [|apply (H [] (a :: s)); reflexivity].
  rewrite IH; [cbn [orelse]; apply (H [] (a :: s)); reflexivity|]. intros w t pr' E F. apply (H (a :: w) t pr'); [now rewrite E|]. cbn [forallb]. now rewrite P.
Qed.
Lemma lazy_take p w t : forall pr c k x, forallb p w = true -> (forall w1 a w2 pr', w = w1 ++ a :: w2 -> k pr' (a :: w2 ++ t) c = None) -> k (prv pr w) t c = Some x -> lazy p pr (w ++ t) c k = Some x.
Proof.
  induction w as [|a w IH]; intros pr c k x P N E.
  - cbn [app prv fold_left] in *. destruct t; cbn [lazy]; now rewrite E.
  - cbn [forallb] in P. apply andb_true_iff in P. destruct P as (Pa & P). cbn [app lazy]. rewrite (N [] a w pr eq_refl). cbn [orelse]. rewrite Pa. apply IH; auto. intros w1 b w2 pr' Ew. apply (N (a :: w1) b w2 pr'). now rewrite Ew.
Qed.
Lemma lazy_none p s : forall pr c k, (forall w t pr', s = w ++ t -> forallb p w = true -> k pr' t c = None) -> lazy p pr s c k = None.
Proof.
  induction s as [|a s IH]; intros pr c k H; cbn [lazy]; rewrite (H [] _ pr eq_refl eq_refl); cbn [orelse]; [reflexivity|]. destruct (p a) eqn:P; [|reflexivity].
  apply IH. intros w t pr' E F. apply (H (a :: w) t pr'); [now rewrite E|]. cbn [forallb]. now rewrite P.
Qed.
End X.
(** ** Pieces of text *)
Definition nospace (a : ascii) : Prop := is_space a = false.
(** how a string is written: between quotes, or bare *)
Inductive token : str -> Prop :=
| tok_dq s : ~ In dq s -> ~ In nl s -> token (quoted dq s)
| tok_sq s : ~ In sq s -> ~ In nl s -> token (quoted sq s)
| tok_bare a s : ~ In a [sq; dq; comma; hash] -> nospace a -> (forall z l, a :: s = z ++ [l] -> nospace l) -> ~ In comma (a :: s) -> ~ In hash (a :: s) -> ~ In nl (a :: s) -> token (a :: s).
(** what may follow: white space and a comment *)
Definition tail_ok (t : str) : Prop := exists w com, t = w ++ com /\ forallb is_space w = true /\ ~ In nl t /\ ~ In comma t /\ (com = [] \/ exists c, com = hash :: c).
Section Y.
Context {X : Type}.
Implicit Types (k : @kont X) (x : X).
Lemma quoted_take q s t pr c k x : ~ In q s -> ~ In nl s -> k (Some q) t c = Some x -> run (seqs [lit1 q; RLazy dot; lit1 q]) pr (quoted q s ++ t) c k = Some x.
Proof.
  intros N1 N2 E. cbn [seqs run lit1 quoted app]. rewrite is_refl. rewrite <- app_assoc. apply lazy_take.
  - apply forallb_forall. intros a I'. apply dot_spec. intros ->. contradiction.
  - intros w1 a w2 pr' Ew. cbn [app]. assert (is q a = false) as ->; [|reflexivity]. apply is_neq. intros ->. apply N1. rewrite Ew. apply in_or_app. right. now left.
  - cbn [app]. now rewrite is_refl.
Qed.
(** no comma, no list item *)
Lemma comma_none s pr c k : ~ In comma s -> run (seqs [RMany is_space; lit1 comma; RMany is_space]) pr s c k = None.
Proof.
  intros N. cbn [seqs run lit1]. apply many_none. intros w t pr' E _. destruct t as [|a t]; [reflexivity|]. assert (is comma a = false) as ->; [|reflexivity]. apply is_neq. intros ->. apply N. rewrite E. apply in_or_app. right. now left.
Qed.
Lemma item_unfold pr s c k : run item pr s c k = orelse (run dquoted pr s c (fun pr s c => run (seqs [RMany is_space; lit1 comma; RMany is_space]) pr s c k)) (orelse (run squoted pr s c (fun pr s c => run (seqs [RMany is_space; lit1 comma; RMany is_space]) pr s c k)) (run (seqs [RChr (none_of [sq; dq; comma; hash]); RLazy (none_of [comma; hash])]) pr s c (fun pr s c => run (seqs [RMany is_space; lit1 comma; RMany is_space]) pr s c k))).
Proof. reflexivity. Qed.
Lemma quote_first_none q a s pr c k : a <> q -> run (seqs [lit1 q; RLazy dot; lit1 q]) pr (a :: s) c k = None.
Proof. intros N. cbn [seqs run lit1]. apply is_neq in N. now rewrite N. Qed.
Lemma quoted_then_none q s t pr c k : ~ In q s -> (forall t1 t2 pr', t = t1 ++ t2 -> k pr' t2 c = None) -> run (seqs [lit1 q; RLazy dot; lit1 q]) pr (quoted q s ++ t) c k = None.
Proof.
  intros N H. cbn [seqs run lit1 quoted app]. rewrite is_refl. apply lazy_none. intros w u pr' E _. destruct u as [|a u]; [reflexivity|]. destruct (is q a) eqn:Q; [|reflexivity]. apply is_eq in Q. subst a.
  (* the closing quote is the one of the text or later *)
  rewrite <- app_assoc in E. cbn [app] in E. 
  assert (exists t1, t = t1 ++ u) as (t1 & E1); [|now apply (H t1)].
  revert w E. induction s as [|b s IH]; intros w E.
  - cbn [app] in E. destruct w as [|d w]; [injection E as E; exists []; exact E|]. injection E as _ E. exists (w ++ [q]). now rewrite <- app_assoc.
  - destruct w as [|d w]; [cbn [app] in E; injection E as E _; exfalso; apply N; now left|]. cbn [app] in E. injection E as _ E. apply IH with (w := w); [|exact E]. intros I'. apply N. now right.
Qed.
Lemma item_none q t pr c k : token q -> ~ In comma t -> run item pr (q ++ t) c k = None.
Proof.
  intros T N. rewrite item_unfold. assert (forall t1 t2 pr', t = t1 ++ t2 -> run (seqs [RMany is_space; lit1 comma; RMany is_space]) pr' t2 c k = None) as C.
  { intros t1 t2 pr' E. apply (comma_none). intros I'. apply N. rewrite E. apply in_or_app. now right. }
  inversion T as [s N1 N2|s N1 N2|a s F S1 S2 Nc Nh Nn]; subst q.
  - unfold dquoted. rewrite quoted_then_none by assumption. cbn [orelse]. unfold squoted, quoted. cbn [app]. rewrite quote_first_none by discriminate. reflexivity.
  - unfold dquoted, quoted. cbn [app]. rewrite quote_first_none by discriminate. cbn [orelse]. unfold squoted. change (sq :: (s ++ [sq]) ++ t) with (quoted sq s ++ t). rewrite quoted_then_none by assumption. reflexivity.
  - cbn [app]. unfold dquoted, squoted. rewrite !quote_first_none by (intros ->; apply F; cbn; tauto). cbn [orelse seqs run].
    assert (none_of [sq; dq; comma; hash] a = true) as -> by (now apply none_of_spec). apply lazy_none. intros w u pr' E _. apply (comma_none). intros I'.
    assert (In comma (s ++ t)) as I2 by (rewrite E; apply in_or_app; now right). apply in_app_or in I2. destruct I2 as [I2|I2]; [apply Nc; now right|contradiction].
Qed.
Lemma comma_take t pr c k x sp : forallb is_space sp = true -> match t with a :: _ => is_space a = false | [] => True end -> k (prv (Some comma) sp) t c = Some x ->
  run (seqs [RMany is_space; lit1 comma; RMany is_space]) pr (comma :: sp ++ t) c k = Some x.
Proof.
  intros S T E. cbn [seqs run lit1 many]. change (is_space comma) with false. cbv iota. rewrite is_refl. apply many_take; [exact S|exact T|exact E].
Qed.
Lemma bare_suffix a s w1 b w2 : (forall z l, a :: s = z ++ [l] -> nospace l) -> s = w1 ++ b :: w2 -> exists l, In l (b :: w2) /\ nospace l.
Proof.
  intros H E. destruct (@exists_last _ (b :: w2)) as (z & l & El); [discriminate|]. exists l. split; [rewrite El; apply in_or_app; right; now left|]. apply (H (a :: w1 ++ z)). rewrite E, El. cbn [app]. now rewrite <- app_assoc.
Qed.
(** reading one element of a list *)
(** white space and a character [x] are not found inside of a bare word *)
Lemma inside_none ch (u t : str) pr c k : (exists l, In l u /\ nospace l) -> ~ In ch u -> is_space ch = false -> run (seqs [RMany is_space; lit1 ch]) pr (u ++ t) c k = None.
Proof.
  intros (l & I' & Nl) N Sx. cbn [seqs run lit1]. apply many_none. intros w v pr' E W.
  assert (exists v', v = v' ++ t /\ u = w ++ v' /\ In l v') as (v' & -> & Eu & Iv).
  { revert w E W. induction u as [|a u IH]; intros w E W; [contradiction|]. destruct w as [|b w].
    - exists (a :: u). cbn [app] in E. auto.
    - cbn [app] in E. injection E as <- E. cbn [forallb] in W. apply andb_true_iff in W. destruct W as (Wa & W). destruct I' as [->|I']; [exfalso; unfold nospace in Nl; congruence|].
      destruct (IH I' (fun H => N (or_intror H)) w E W) as (v' & Ev & Eu & Iv). exists v'. split; [exact Ev|]. split; [now rewrite Eu|exact Iv]. }
  destruct v' as [|b v']; [contradiction|]. cbn [app]. assert (is ch b = false) as ->; [|reflexivity]. apply is_neq. intros ->. apply N. rewrite Eu. apply in_or_app. right. now left.
Qed.
Lemma seqs3 a b r pr s c k : run (seqs [a; b; r]) pr s c k = run (seqs [a; b]) pr s c (fun pr s c => run r pr s c k).
Proof. reflexivity. Qed.
Lemma item_take q sp t pr c k x : token q -> forallb is_space sp = true -> match t with a :: _ => is_space a = false | [] => True end -> k (prv (Some comma) sp) t c = Some x -> run item pr (q ++ comma :: sp ++ t) c k = Some x.
Proof.
  intros T S Ht E. rewrite item_unfold. assert (forall pr', run (seqs [RMany is_space; lit1 comma; RMany is_space]) pr' (comma :: sp ++ t) c k = Some x) as C by (intros pr'; apply comma_take; auto).
  inversion T as [s N1 N2|s N1 N2|a s F S1 S2 Nc Nh Nn]; subst q.
  - unfold dquoted. erewrite quoted_take; [reflexivity|assumption|assumption|apply C].
  - unfold dquoted at 1. unfold quoted at 1. cbn [app]. rewrite quote_first_none by discriminate. cbn [orelse]. unfold squoted. change (sq :: (s ++ [sq]) ++ comma :: sp ++ t) with (quoted sq s ++ comma :: sp ++ t). erewrite quoted_take; [reflexivity|assumption|assumption|apply C].
  - cbn [app]. unfold dquoted, squoted. rewrite !quote_first_none by (intros ->; apply F; cbn; tauto). cbn [orelse]. change (seqs [RChr (none_of [sq; dq; comma; hash]); RLazy (none_of [comma; hash])]) with (RSeq (RChr (none_of [sq; dq; comma; hash])) (RLazy (none_of [comma; hash]))). cbn [run].
    assert (none_of [sq; dq; comma; hash] a = true) as -> by (now apply none_of_spec). apply lazy_take.
    + apply forallb_forall. intros b I'. apply none_of_spec. intros [<-|[<-|[]]]; [apply Nc; now right|apply Nh; now right].
    + intros w1 b w2 pr' E2. rewrite seqs3. apply (inside_none comma (b :: w2)); [now apply (bare_suffix a s w1)| |reflexivity]. intros I'. apply Nc. right. rewrite E2. apply in_or_app. now right.
    + apply C.
Qed.
(** the end of a value *)
Lemma comment_end_take n w com pr c k x : forallb is_space w = true -> com = [] \/ (exists r, com = hash :: r /\ ~ In nl r) ->
  (forall pr', k pr' [] (match com with [] => c | _ => (n, com) :: c end) = Some x) -> run (comment_end n) pr (w ++ com) c k = Some x.
Proof.
  intros W H E. unfold comment_end. cbn [seqs run ropt]. apply many_take; [exact W| |].
  - destruct H as [->|(r & -> & _)]; [exact I|reflexivity].
  - destruct H as [->|(r & -> & N)].
    + cbn [run lit1 orelse]. apply E.
    + cbn [run lit1]. rewrite is_refl. assert (many dot (Some hash) r c (fun pr t c0 => match t with [] => k pr t ((n, taken (hash :: r) t) :: c0) | _ :: _ => None end) = Some x) as M.
      { rewrite <- (app_nil_r r) at 1. apply many_take; [apply forallb_forall; intros a I'; apply dot_spec; intros ->; contradiction|exact I|]. unfold taken. cbn [List.length]. rewrite Nat.sub_0_r. change (S (List.length r)) with (List.length (hash :: r)). rewrite firstn_all. apply E. }
      rewrite M. reflexivity.
Qed.
Lemma comment_end_inside n (u t : str) pr c k : (exists l, In l u /\ nospace l) -> ~ In hash u -> run (comment_end n) pr (u ++ t) c k = None.
Proof.
  intros (l & I' & Nl) N. unfold comment_end. cbn [seqs run ropt]. apply many_none. intros w v pr' E W.
  assert (exists v', v = v' ++ t /\ u = w ++ v' /\ In l v') as (v' & -> & Eu & Iv).
  { revert w E W. induction u as [|a u IH]; intros w E W; [contradiction|]. destruct w as [|b w].
    - exists (a :: u). cbn [app] in E. auto.
    - cbn [app] in E. injection E as <- E. cbn [forallb] in W. apply andb_true_iff in W. destruct W as (Wa & W). destruct I' as [->|I']; [exfalso; unfold nospace in Nl; congruence|].
      destruct (IH I' (fun H => N (or_intror H)) w E W) as (v' & Ev & Eu & Iv). exists v'. split; [exact Ev|]. split; [now rewrite Eu|exact Iv]. }
  destruct v' as [|b v']; [contradiction|]. cbn [app run lit1]. assert (is hash b = false) as ->; [|reflexivity]. apply is_neq. intros ->. apply N. rewrite Eu. apply in_or_app. right. now left.
Qed.
End Y.
