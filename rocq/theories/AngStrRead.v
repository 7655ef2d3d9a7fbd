(** * AngStrRead: which texts are angles and what they mean (C91) *)
From Coq Require Import List Bool Arith Reals ZArith String Ascii Lia Lra.
From Verif Require Import PyBase PubModel AngleModel AngStrModel AngStrRe.
Import ListNotations.
Open Scope R_scope.

Lemma consumed_app w t : consumed (w ++ t) t = w.
Proof. unfold consumed. rewrite app_length. replace (List.length w + List.length t - List.length t)%nat with (List.length w) by lia. rewrite firstn_app, Nat.sub_diag, firstn_all. apply app_nil_r. Qed.
Lemma eqs a b : str_eqb a b = true <-> a = b.
Proof.
  revert b; induction a as [|x a IH]; intros [|y b]; cbn [str_eqb]; try (split; [reflexivity|]); try (split; discriminate); auto.
  rewrite andb_true_iff, IH, Ascii.eqb_eq. split; [intros (-> & ->); reflexivity|intros E; injection E; auto].
Qed.
Lemma grp_matches n a s c t d : matches (Grp n a) s c t d <-> exists e, matches a s c t e /\ d = setc e n (consumed s t).
Proof. split; [intros M; inversion M; subst; eauto|]. intros (e & M & ->). now constructor. Qed.

(** marks *)
Lemma mark1_matches s c t d : matches mark1 s c t d <-> d = c /\ exists mk, s = mk ++ t /\ (In mk words \/ mk = L ":" /\ tail t).
Proof.
  unfold mark1. rewrite alts_matches by discriminate. split.
  - intros (r & I' & M). cbn [In] in I'.
    repeat (destruct I' as [<-|I']; [first [apply lit_matches in M; destruct M as (-> & ->); split; [reflexivity|]; eexists; split; [reflexivity|]; left; cbn; tauto|
      apply seq_matches in M; destruct M as (u & e & M1 & M2); apply lit_matches in M1; destruct M1 as (-> & ->); apply ahead_matches in M2; destruct M2 as (-> & -> & T);
      split; [reflexivity|]; eexists; split; [reflexivity|]; right; auto]|]). contradiction.
  - intros (-> & mk & -> & [I'|(-> & T)]).
    + exists (lit mk). split; [|now apply lit_matches]. unfold words in I'. cbn [map In] in I'. cbn [In]. 
      repeat (destruct I' as [<-|I']; [tauto|]). contradiction.
    + eexists. split; [cbn [In]; do 9 right; left; reflexivity|]. apply seq_matches. exists t, c. split; [now apply lit_matches|]. apply ahead_matches. auto.
Qed.
Lemma mark2_matches s c t d : matches mark2 s c t d <-> d = c /\ exists mk, s = mk ++ t /\ In mk minute_marks.
Proof.
  unfold mark2. rewrite alts_matches by discriminate. split.
  - intros (r & I' & M). cbn [In] in I'.
    repeat (destruct I' as [<-|I']; [apply lit_matches in M; destruct M as (-> & ->); split; [reflexivity|]; eexists; split; [reflexivity|]; cbn; tauto|]). contradiction.
  - intros (-> & mk & -> & I'). exists (lit mk). split; [|now apply lit_matches]. unfold minute_marks in I'. cbn [map In] in I'. cbn [In]. 
    repeat (destruct I' as [<-|I']; [tauto|]). contradiction.
Qed.
Lemma mark3_matches s c t d : matches mark3 s c t d <-> d = c /\ (s = L "s" ++ t \/ s = """"%char :: t \/ s = [] /\ t = []).
Proof.
  unfold mark3. rewrite alts_matches by discriminate. split.
  - intros (r & I' & M). cbn [In] in I'. destruct I' as [<-|[<-|[<-|[]]]].
    + apply lit_matches in M. tauto.
    + apply chr_matches in M. destruct M as (-> & a & -> & P). apply Ascii.eqb_eq in P. subst a. auto.
    + apply end_matches in M. tauto.
  - intros (-> & [->|[->|(-> & ->)]]).
    + exists (lit (L "s")). split; [cbn [In]; auto|]. now apply lit_matches.
    + exists (Chr (Ascii.eqb """"%char)). split; [cbn [In]; auto|]. apply chr_matches. split; [reflexivity|]. eexists. split; [reflexivity|apply Ascii.eqb_refl].
    + exists End. split; [cbn [In]; auto|]. constructor.
Qed.

Definition F1 : re := Seq (opt (Grp 1 (Chr is_sign))) (Seq (Grp 2 num) (Grp 3 mark1)).
Definition F2 : re := Seq (Grp 4 num) (Grp 5 mark2).
Definition F3 : re := Seq (Grp 6 num) (Grp 7 mark3).
Lemma acregex_eq : acregex = Seq (opt F1) (Seq (opt F2) (Seq (opt F3) End)).
Proof. reflexivity. Qed.

Lemma sign_in a : is_sign a = true <-> [a] = L "+" \/ [a] = L "-".
Proof.
  unfold is_sign. rewrite orb_true_iff, !Ascii.eqb_eq. split; (intros [E|E]; [left|right]).
  - now subst. - now subst. - cbn in E. now injection E. - cbn in E. now injection E.
Qed.
(** the first field and its captures *)
Lemma F1_sound s c t d : matches F1 s c t d -> c 1%nat = None ->
  exists sg v mk, (exists w, s = w ++ t /\ first_field w t sg v mk) /\ d 1%nat = match sg with [] => None | _ => Some sg end /\
    part (d 2%nat) 1 = v /\ d 3%nat = Some mk /\ forall k, (4 <= k)%nat -> d k = c k.
Proof.
  intros M C1. unfold F1 in M. apply seq_matches in M. destruct M as (t1 & d1 & M1 & M). apply seq_matches in M. destruct M as (t2 & d2 & M2 & M3).
  apply grp_matches in M2, M3. destruct M2 as (e2 & M2 & ->), M3 as (e3 & M3 & ->). apply num_matches in M2. destruct M2 as (-> & n & -> & v & N).
  apply mark1_matches in M3. destruct M3 as (-> & mk & -> & MK). rewrite !consumed_app.
  assert (PF : pyfloat n / 1 = v) by (rewrite (float_numeral _ _ N); field).
  apply opt_matches in M1. destruct M1 as [M1|(<- & ->)].
  - apply grp_matches in M1. destruct M1 as (e1 & M1 & ->). apply chr_matches in M1. destruct M1 as (-> & a & -> & P).
    exists [a], v, mk. split; [exists (a :: n ++ mk); split; [cbn; now rewrite <- app_assoc|]; split; [|split; [exists n; split; [exact N|reflexivity]|exact MK]]; apply sign_in in P; cbn [In]; destruct P as [P|P]; rewrite P; auto|].
    split; [|split; [exact PF|split; [reflexivity|]]].
    + unfold setc. cbn [Nat.eqb]. f_equal. change (a :: n ++ mk ++ t) with ([a] ++ (n ++ mk ++ t)). now rewrite consumed_app.
    + intros k K. unfold setc. destruct (Nat.eqb_spec k 3); [lia|]. destruct (Nat.eqb_spec k 2); [lia|]. destruct (Nat.eqb_spec k 1); [lia|]. reflexivity.
  - exists [], v, mk. split; [exists (n ++ mk); split; [now rewrite <- app_assoc|]; split; [cbn; auto|split; [exists n; split; [exact N|reflexivity]|exact MK]]|].
    split; [unfold setc; cbn [Nat.eqb]; exact C1|split; [exact PF|split; [reflexivity|]]].
    intros k K. unfold setc. destruct (Nat.eqb_spec k 3); [lia|]. destruct (Nat.eqb_spec k 2); [lia|]. reflexivity.
Qed.
Lemma F1_complete w t sg v mk c : first_field w t sg v mk -> exists d, matches F1 (w ++ t) c t d.
Proof.
  intros (SG & (n & N & ->) & MK). unfold F1. 
  assert (T : forall c, exists d, matches (Seq (Grp 2 num) (Grp 3 mark1)) ((n ++ mk) ++ t) c t d).
  { intros c'. eexists. apply seq_matches. exists (mk ++ t), (setc c' 2 (consumed (n ++ mk ++ t) (mk ++ t))). split.
    - rewrite <- app_assoc. apply grp_matches. exists c'. split; [|reflexivity]. apply num_matches. eauto.
    - apply grp_matches. eexists. split; [|reflexivity]. apply mark1_matches. split; [reflexivity|]. eauto. }
  cbn [In] in SG. destruct SG as [<-|SG].
  - destruct (T c) as (d & M). exists d. apply seq_matches. exists ((n ++ mk) ++ t), c. split; [|exact M]. apply opt_matches. auto.
  - assert (P : exists a, sg = [a] /\ is_sign a = true) by (destruct SG as [<-|[<-|[]]]; eexists; split; reflexivity). destruct P as (a & -> & P).
    destruct (T (setc c 1 (consumed (a :: (n ++ mk) ++ t) ((n ++ mk) ++ t)))) as (d & M). exists d. apply seq_matches. eexists _, _. split; [|exact M].
    apply opt_matches. left. apply grp_matches. eexists. split; [|reflexivity]. apply chr_matches. split; [reflexivity|]. exists a. auto.
Qed.
Lemma F2_sound s c t d : matches F2 s c t d -> exists w v, s = w ++ t /\ next_field minute_marks w (Some v) /\ part (d 4%nat) 60 = v / 60 /\ forall k, (k < 4 \/ 6 <= k)%nat -> d k = c k.
Proof.
  intros M. unfold F2 in M. apply seq_matches in M. destruct M as (t2 & d2 & M2 & M3).
  apply grp_matches in M2, M3. destruct M2 as (e2 & M2 & ->), M3 as (e3 & M3 & ->). apply num_matches in M2. destruct M2 as (-> & n & -> & v & N).
  apply mark2_matches in M3. destruct M3 as (-> & mk & -> & MK). rewrite !consumed_app. exists (n ++ mk), v. split; [now rewrite <- app_assoc|]. split; [now constructor|].
  split; [unfold setc, part; cbn [Nat.eqb]; now rewrite (float_numeral _ _ N)|]. intros k K. unfold setc. destruct (Nat.eqb_spec k 5); [lia|]. destruct (Nat.eqb_spec k 4); [lia|]. reflexivity.
Qed.
Lemma F2_complete w v t c : next_field minute_marks w (Some v) -> exists d, matches F2 (w ++ t) c t d.
Proof.
  intros G. inversion G; subst. unfold F2. eexists. apply seq_matches. eexists _, _. split.
  - rewrite <- app_assoc. apply grp_matches. eexists. split; [|reflexivity]. apply num_matches. split; [reflexivity|]. eauto.
  - apply grp_matches. eexists. split; [|reflexivity]. apply mark2_matches. split; [reflexivity|]. eauto.
Qed.
Lemma F3_sound s c d : matches F3 s c [] d -> exists v, next_field second_marks s (Some v) /\ part (d 6%nat) 3600 = v / 3600 /\ forall k, (k < 6)%nat -> d k = c k.
Proof.
  intros M. unfold F3 in M. apply seq_matches in M. destruct M as (t2 & d2 & M2 & M3).
  apply grp_matches in M2, M3. destruct M2 as (e2 & M2 & ->), M3 as (e3 & M3 & ->). apply num_matches in M2. destruct M2 as (-> & n & -> & v & N).
  apply mark3_matches in M3. destruct M3 as (-> & MK). rewrite !consumed_app. exists v. split.
  - constructor; [exact N|]. destruct MK as [->|[->|(-> & _)]]; cbn; auto.
  - split; [unfold setc, part; cbn [Nat.eqb]; now rewrite (float_numeral _ _ N)|]. intros k K. unfold setc. destruct (Nat.eqb_spec k 7); [lia|]. destruct (Nat.eqb_spec k 6); [lia|]. reflexivity.
Qed.
Lemma F3_complete w v c : next_field second_marks w (Some v) -> exists d, matches F3 w c [] d.
Proof.
  intros G. inversion G; subst. unfold F3. eexists. apply seq_matches. eexists _, _. split.
  - apply grp_matches. eexists. split; [|reflexivity]. apply num_matches. split; [reflexivity|]. eauto.
  - apply grp_matches. eexists. split; [|reflexivity]. apply mark3_matches. split; [reflexivity|].
    match goal with H : In mk _ |- _ => cbn in H; destruct H as [<-|[<-|[<-|[]]]] end; cbn; auto.
Qed.

(** ** A split is determined by which fields are present *)
Definition nd (a : ascii) : bool := is_digit a || is_dot a.
Definition starts_digit (t : str) : Prop := match t with [] => True | a :: _ => is_digit a = true end.
Lemma numeral_chars n v : numeral n v -> forallb nd n = true /\ exists a r, n = a :: r /\ is_digit a = true.
Proof.
  assert (D : forall a, all_digits a -> forallb nd a = true).
  { intros a H. apply all_iff in H. rewrite forallb_forall in H |- *. intros y Y. unfold nd. now rewrite (H y Y). }
  intros [a N A|a b N A B]; (split; [|destruct a as [|y a]; [congruence|]; eexists _, _; split; [reflexivity|]; apply digits_iff, A; now left]).
  - now apply D.
  - rewrite !forallb_app, (D a A), (D b B). reflexivity.
Qed.
Lemma field_unique (p : ascii -> bool) n n' r r' : n ++ r = n' ++ r' -> forallb p n = true -> forallb p n' = true ->
  (match r with [] => True | a :: _ => p a = false end) -> (match r' with [] => True | a :: _ => p a = false end) -> n = n' /\ r = r'.
Proof. intros E A B C D. pose proof (span_all p n r A C) as S1. pose proof (span_all p n' r' B D) as S2. rewrite E in S1. rewrite S1 in S2. now injection S2. Qed.
Definition nnd (a : ascii) : bool := negb (nd a).
Definition marky (mk : str) : Prop := mk <> [] /\ forallb nnd mk = true.
Lemma digit_nd a : is_digit a = true -> nnd a = false.
Proof. intros D. unfold nnd, nd. now rewrite D. Qed.
Lemma num_mark_unique n v mk t n' v' mk' t' : n ++ mk ++ t = n' ++ mk' ++ t' -> numeral n v -> numeral n' v' -> marky mk -> marky mk' -> starts_digit t -> starts_digit t' ->
  n = n' /\ v = v' /\ mk = mk' /\ t = t'.
Proof.
  intros E N N' (M & Mf) (M' & Mf') T T'. destruct (numeral_chars _ _ N) as (A & _), (numeral_chars _ _ N') as (A' & _).
  assert (S : forall q u, q <> [] -> forallb nnd q = true -> match q ++ u with [] => True | a :: _ => nd a = false end).
  { intros [|a q] u Q F; [congruence|]. cbn [app forallb] in *. apply andb_prop in F. destruct F as (F & _). unfold nnd in F. now apply negb_true_iff in F. }
  destruct (field_unique nd _ _ _ _ E A A' (S mk t M Mf) (S mk' t' M' Mf')) as (-> & E2).
  assert (S2 : forall u, starts_digit u -> match u with [] => True | a :: _ => nnd a = false end) by (intros [|a u]; [auto|apply digit_nd]).
  destruct (field_unique nnd _ _ _ _ E2 Mf Mf' (S2 t T) (S2 t' T')) as (-> & ->).
  repeat split. rewrite <- (float_numeral _ _ N), <- (float_numeral _ _ N'). reflexivity.
Qed.
Lemma words_marky mk (T : Prop) : In mk words \/ mk = L ":" /\ T -> marky mk.
Proof.
  intros [I'|(-> & _)]; [|split; [discriminate|reflexivity]]. unfold words in I'. cbn [map In] in I'.
  repeat (destruct I' as [<-|I']; [split; [discriminate|reflexivity]|]). contradiction.
Qed.
Lemma minute_marky mk : In mk minute_marks -> marky mk.
Proof. intros I'. unfold minute_marks in I'. cbn [map In] in I'. repeat (destruct I' as [<-|I']; [split; [discriminate|reflexivity]|]). contradiction. Qed.
Lemma starts_app b c : starts_digit b -> starts_digit c -> starts_digit (b ++ c).
Proof. destruct b; cbn; auto. Qed.
Lemma next_starts mks w m : next_field mks w m -> starts_digit w.
Proof. intros [|n v mk N _]; [exact I|]. destruct (numeral_chars _ _ N) as (_ & a & r & -> & D). exact D. Qed.
Lemma first_unique w t sg v mk w' t' sg' v' mk' : w ++ t = w' ++ t' -> first_field w t sg v mk -> first_field w' t' sg' v' mk' -> starts_digit t -> starts_digit t' ->
  sg = sg' /\ v = v' /\ mk = mk' /\ t = t'.
Proof.
  intros E (SG & (n & N & ->) & MK) (SG' & (n' & N' & ->) & MK') T T'. apply words_marky in MK, MK'.
  assert (G : sg = sg' /\ n ++ mk ++ t = n' ++ mk' ++ t').
  { rewrite <- !app_assoc in E. destruct (numeral_chars _ _ N) as (_ & a & r & -> & D), (numeral_chars _ _ N') as (_ & a' & r' & -> & D').
    cbn [In] in SG, SG'. destruct SG as [<-|[<-|[<-|[]]]], SG' as [<-|[<-|[<-|[]]]]; cbn [L list_ascii_of_string app] in E |- *;
      try (split; [reflexivity|]; try exact E; injection E; intros H; intros; subst; now rewrite H); 
      injection E; intros; subst; cbv in D, D'; discriminate. }
  destruct G as (-> & G). destruct (num_mark_unique _ _ _ _ _ _ _ _ G N N' MK MK' T T') as (_ & -> & -> & ->). auto.
Qed.
Lemma next_some_none mks : forall w m, next_field mks w m -> (w = [] <-> m = None).
Proof.
  intros w m [|n v mk N _]; [tauto|]. destruct (numeral_chars _ _ N) as (_ & a & r & -> & _). split; discriminate.
Qed.
Lemma second_unique c x x' : next_field second_marks c x -> next_field second_marks c x' -> x = x'.
Proof.
  intros G G'. pose proof (next_some_none _ _ _ G) as E. pose proof (next_some_none _ _ _ G') as E'.
  destruct x as [v|], x' as [v'|]; try reflexivity; try (exfalso; assert (c = []) by tauto; assert (X : Some v = None) by tauto; discriminate);
    try (exfalso; assert (c = []) by tauto; assert (X : Some v' = None) by tauto; discriminate).
  inversion G; inversion G'; subst.
  match goal with H : ?n' ++ ?mk' = ?n ++ ?mk, N : numeral ?n v, N' : numeral ?n' v' |- _ => rename H into EQ; rename N into N1; rename N' into N2 end.
  assert (S : forall q, In q second_marks -> match q with [] => True | a :: _ => nd a = false end) by (intros q [<-|[<-|[<-|[]]]]; [reflexivity|reflexivity|exact I]).
  destruct (field_unique nd _ _ _ _ EQ) as (-> & _); try (now apply S); try (eapply numeral_chars; eassumption).
  now rewrite <- (float_numeral _ _ N1), <- (float_numeral _ _ N2).
Qed.
Lemma rest_unique b c m x b' c' m' x' : b ++ c = b' ++ c' -> next_field minute_marks b m -> next_field second_marks c x -> next_field minute_marks b' m' -> next_field second_marks c' x' ->
  (m <> None <-> m' <> None) -> m = m' /\ x = x'.
Proof.
  intros E B C B' C' P. inversion B; inversion B'; subst.
  - split; [reflexivity|]. cbn [app] in E. subst. eapply second_unique; eassumption.
  - exfalso. intuition congruence.
  - exfalso. intuition congruence.
  - rewrite <- !app_assoc in E.
    match goal with N : numeral n v, N' : numeral n0 v0 |- _ => 
      destruct (num_mark_unique _ _ _ _ _ _ _ _ E N N') as (_ & -> & _ & ->); [now apply minute_marky|now apply minute_marky|now apply (next_starts second_marks c x)|now apply (next_starts second_marks c' x')|] end.
    split; [reflexivity|]. eapply second_unique; eassumption.
Qed.
Lemma fields_unique s f m x f' m' x' : fields s f m x -> fields s f' m' x' -> (f <> None <-> f' <> None) -> (m <> None <-> m' <> None) -> f = f' /\ m = m' /\ x = x'.
Proof.
  intros (a & b & c & -> & A & B & C) (a' & b' & c' & E & A' & B' & C') P Q.
  pose proof (starts_app _ _ (next_starts _ _ _ B) (next_starts _ _ _ C)) as T. pose proof (starts_app _ _ (next_starts _ _ _ B') (next_starts _ _ _ C')) as T'.
  destruct f as [((sg & v) & mk)|], f' as [((sg' & v') & mk')|].
  - cbn [first_part] in A, A'. destruct (first_unique _ _ _ _ _ _ _ _ _ _ E A A' T T') as (-> & -> & -> & E2).
    destruct (rest_unique _ _ _ _ _ _ _ _ E2 B C B' C' Q) as (-> & ->). auto.
  - exfalso. intuition congruence.
  - exfalso. intuition congruence.
  - cbn [first_part] in A, A'. subst. cbn [app] in E. destruct (rest_unique _ _ _ _ _ _ _ _ E B C B' C' Q) as (-> & ->). auto.
Qed.
Lemma preferred_unique s f m x f' m' x' : preferred s f m x -> preferred s f' m' x' -> f = f' /\ m = m' /\ x = x'.
Proof.
  intros (F & P) (F' & P'). destruct (P _ _ _ F') as (P1 & P2), (P' _ _ _ F) as (P1' & P2'). apply (fields_unique s); auto; [tauto|]. split; [apply P2'; tauto|apply P2; tauto].
Qed.

(** ** What the matcher finds *)
Definition fin : str -> caps -> option caps := fun _ c => Some c.
Definition RR3 : re := Seq (opt F3) End.
Definition RR2 : re := Seq (opt F2) RR3.
Lemma RR3_sound t d e : run RR3 t d fin = Some e -> d 6%nat = None -> exists x, next_field second_marks t x /\ part (e 6%nat) 3600 = val x / 3600 /\ forall k, (k < 6)%nat -> e k = d k.
Proof.
  intros E N. apply run_sound in E. destruct E as (u & e' & M & K). injection K as ->. unfold RR3 in M. apply seq_matches in M. destruct M as (u' & e' & M & En).
  apply end_matches in En. destruct En as (-> & -> & ->). apply opt_matches in M. destruct M as [M|(<- & ->)].
  - apply F3_sound in M. destruct M as (v & G & P & K). exists (Some v). auto.
  - exists None. split; [constructor|]. split; [unfold part; rewrite N; cbn; field|auto].
Qed.
Lemma RR3_complete t d x : next_field second_marks t x -> run RR3 t d fin <> None.
Proof.
  intros G E. assert (M : exists e, matches RR3 t d [] e).
  { destruct x as [v|].
    - destruct (F3_complete t v d G) as (e & M). exists e. unfold RR3. apply seq_matches. exists [], e. split; [apply opt_matches; auto|constructor].
    - assert (t = []) by (now apply (next_some_none _ _ _ G)). subst. exists d. unfold RR3. apply seq_matches. exists [], d. split; [apply opt_matches; auto|constructor]. }
  destruct M as (e & M). eapply run_complete in E; [|exact M]. discriminate.
Qed.
Lemma run_seq a b s c k : run (Seq a b) s c k = run a s c (fun t d => run b t d k).
Proof. reflexivity. Qed.
Lemma run_opt r s c k : run (opt r) s c k = match run r s c k with Some x => Some x | None => k s c end.
Proof. reflexivity. Qed.
Definition has_minutes t := exists b c v x, t = b ++ c /\ next_field minute_marks b (Some v) /\ next_field second_marks c x.
Lemma RR2_sound t d e : run RR2 t d fin = Some e -> d 4%nat = None -> d 6%nat = None ->
  exists b c m x, t = b ++ c /\ next_field minute_marks b m /\ next_field second_marks c x /\ part (e 4%nat) 60 = val m / 60 /\ part (e 6%nat) 3600 = val x / 3600 /\
    (forall k, (k < 4)%nat -> e k = d k) /\ (has_minutes t -> m <> None).
Proof.
  intros E D4 D6. unfold RR2 in E. rewrite run_seq, run_opt in E. destruct (run F2 t d _) as [y|] eqn:H.
  - injection E as ->. apply run_sound in H. destruct H as (c & d1 & M & K). apply F2_sound in M. destruct M as (b & v & -> & G & P & U).
    apply RR3_sound in K; [|rewrite U by lia; exact D6]. destruct K as (x & G3 & P3 & U3). exists b, c, (Some v), x.
    repeat split; auto; [rewrite U3 by lia; exact P|intros k L; rewrite U3, U by lia; reflexivity|discriminate].
  - apply RR3_sound in E; [|exact D6]. destruct E as (x & G3 & P3 & U3). exists [], t, None, x.
    split; [reflexivity|]. split; [constructor|]. split; [exact G3|]. split; [rewrite U3 by lia; unfold part; rewrite D4; cbn; field|]. split; [exact P3|]. split; [intros k L; apply U3; lia|].
    intros (b & c & v & x' & -> & G & G'). exfalso. destruct (F2_complete b v c d G) as (d' & M). eapply run_complete in H; [|exact M]. exact (RR3_complete _ _ _ G' H).
Qed.
Lemma RR2_complete b c m x d : next_field minute_marks b m -> next_field second_marks c x -> run RR2 (b ++ c) d fin <> None.
Proof.
  intros G G' E. unfold RR2 in E. rewrite run_seq, run_opt in E. destruct (run F2 _ d _) as [y|] eqn:H; [discriminate|]. destruct m as [v|].
  - destruct (F2_complete b v c d G) as (d' & M). eapply run_complete in H; [|exact M]. exact (RR3_complete _ _ _ G' H).
  - assert (b = []) by (now apply (next_some_none _ _ _ G)). subst. exact (RR3_complete _ _ _ G' E).
Qed.
Lemma acregex_sound s e : re_match acregex s = Some e -> exists f m x, preferred s f m x /\ 
  e 1%nat = match f with Some ((_ :: _) as sg, _, _) => Some sg | _ => None end /\ e 3%nat = match f with Some (_, _, mk) => Some mk | None => None end /\
  part (e 2%nat) 1 = match f with Some (_, v, _) => v | None => 0 end /\ part (e 4%nat) 60 = val m / 60 /\ part (e 6%nat) 3600 = val x / 3600.
Proof.
  intros E. unfold re_match in E. rewrite acregex_eq in E. change (Seq (opt F2) (Seq (opt F3) End)) with RR2 in E. change (fun (_ : str) (c : caps) => Some c) with fin in E.
  rewrite run_seq, run_opt in E. destruct (run F1 s _ _) as [y|] eqn:H.
  - injection E as ->. apply run_sound in H. destruct H as (t & d & M & K). apply F1_sound in M; [|reflexivity]. destruct M as (sg & v & mk & (w & -> & FF) & D1 & D2 & D3 & DU).
    apply RR2_sound in K; [|rewrite DU by lia; reflexivity|rewrite DU by lia; reflexivity]. destruct K as (b & c & m & x & -> & B & C & P4 & P6 & U & HM).
    exists (Some (sg, v, mk)), m, x. split; [split|].
    + exists w, b, c. cbn [first_part]. auto.
    + intros f' m' x' (a' & b' & c' & E' & A' & B' & C'). split; [discriminate|]. intros FP MP. apply HM. destruct f' as [((sg' & v') & mk')|]; [|exfalso; intuition congruence].
      cbn [first_part] in A'.
      destruct (first_unique _ _ _ _ _ _ _ _ _ _ E' FF A') as (_ & _ & _ & E2);
        [apply starts_app; [exact (next_starts _ _ _ B)|exact (next_starts _ _ _ C)]|apply starts_app; [exact (next_starts _ _ _ B')|exact (next_starts _ _ _ C')]|].
      rewrite E2. destruct m' as [v2|]; [|congruence]. exists b', c', v2, x'. auto.
    + rewrite !U by lia. repeat split; auto.
  - apply RR2_sound in E; [|reflexivity|reflexivity]. destruct E as (b & c & m & x & -> & B & C & P4 & P6 & U & HM).
    exists None, m, x. split; [split|].
    + exists [], b, c. cbn [first_part app]. auto.
    + intros f' m' x' (a' & b' & c' & E' & A' & B' & C'). assert (f' = None).
      { destruct f' as [((sg' & v') & mk')|]; [exfalso|reflexivity]. cbn [first_part] in A'. rewrite E' in H. 
        destruct (F1_complete _ _ _ _ _ (fun _ => None) A') as (d' & M). eapply run_complete in H; [|exact M]. exact (RR2_complete _ _ _ _ _ B' C' H). }
      subst f'. cbn [first_part] in A'. subst a'. split; [congruence|]. intros _ MP. apply HM. destruct m' as [v2|]; [|congruence]. exists b', c', v2, x'. auto.
    + rewrite !U by lia. repeat split; auto.
Qed.
Lemma acregex_complete s : re_match acregex s = None -> forall f m x, ~ fields s f m x.
Proof.
  intros E f m x (a & b & c & -> & A & B & C). unfold re_match in E. rewrite acregex_eq in E. change (Seq (opt F2) (Seq (opt F3) End)) with RR2 in E. change (fun (_ : str) (c : caps) => Some c) with fin in E.
  rewrite run_seq, run_opt in E. destruct (run F1 _ _ _) as [y|] eqn:H; [discriminate|]. destruct f as [((sg & v) & mk)|].
  - cbn [first_part] in A. destruct (F1_complete _ _ _ _ _ (fun _ => None) A) as (d' & M). eapply run_complete in H; [|exact M]. exact (RR2_complete _ _ _ _ _ B C H).
  - cbn [first_part] in A. subst a. exact (RR2_complete _ _ _ _ _ B C E).
Qed.
Lemma decregex_iff s : re_match decregex s <> None <-> exists x, bare s x.
Proof.
  rewrite <- (proj2 (matcher_spec decregex s)). split.
  - intros (t & c & M). unfold decregex in M. apply seq_matches in M. destruct M as (t1 & d1 & M1 & M). apply seq_matches in M. destruct M as (t2 & d2 & M2 & M3).
    apply num_matches in M2. destruct M2 as (-> & n & -> & v & N). apply end_matches in M3. destruct M3 as (-> & -> & ->). rewrite app_nil_r in M1.
    apply opt_matches in M1. destruct M1 as [M1|(-> & ->)]; [|exists v, s, v; auto].
    apply chr_matches in M1. destruct M1 as (-> & a & -> & P). apply sign_in in P. destruct P as [P|P].
    + exists v, n, v. split; [exact N|]. right. left. split; [|reflexivity]. now rewrite <- P.
    + exists (- v), n, v. split; [exact N|]. right. right. split; [|reflexivity]. now rewrite <- P.
  - intros (x & n & v & N & H). assert (T : forall c, matches (Seq num End) n c [] c).
    { intros c. apply seq_matches. exists [], c. split; [|constructor]. apply num_matches. split; [reflexivity|]. exists n. split; [now rewrite app_nil_r|eauto]. }
    exists [], (fun _ => None). unfold decregex. apply seq_matches. exists n, (fun _ => None). split; [|apply T]. apply opt_matches.
    destruct H as [(-> & _)|[(-> & _)|(-> & _)]]; [auto| |]; left; apply chr_matches; (split; [reflexivity|]); eexists; (split; [reflexivity|reflexivity]).
Qed.
Lemma signed_float_bare s x : bare s x -> signed_float s = x.
Proof.
  intros (n & v & N & H). pose proof (float_numeral _ _ N) as F. destruct (numeral_chars _ _ N) as (_ & a & r & E & D).
  destruct H as [(-> & ->)|[(-> & ->)|(-> & ->)]].
  - subst n. unfold signed_float. destruct (Ascii.eqb_spec a "-"); [subst; discriminate|]. destruct (Ascii.eqb_spec a "+"); [subst; discriminate|]. exact F.
  - cbn [L list_ascii_of_string app signed_float]. exact F.
  - cbn [L list_ascii_of_string app signed_float]. cbn [Ascii.eqb Bool.eqb]. now rewrite F.
Qed.

(** ** C91 *)
(** A text without surrounding blanks that is a bare number is that number of degrees (radians if asked). *)
Theorem C91_number : forall sghms radians t x, bare (strip t) x -> read_angle sghms radians t = Ok (default_unit radians, x).
Proof.
  intros g r t x B. unfold read_angle. destruct (re_match decregex (strip t)) as [c|] eqn:E.
  - rewrite (signed_float_bare _ _ B). reflexivity.
  - exfalso. revert E. apply decregex_iff. eauto.
Qed.
(** Any other text is read as its preferred split into fields, and rejected if it has none. *)
Theorem C91_fields : forall sghms radians t f m x, (forall y, ~ bare (strip t) y) -> preferred (strip t) f m x ->
  exists u, unit_of sghms radians f u /\ read_angle sghms radians t = Ok (u, value_of f m x).
Proof.
  intros g r t f m x NB P. unfold read_angle. destruct (re_match decregex (strip t)) as [c|] eqn:E.
  { exfalso. assert (H : re_match decregex (strip t) <> None) by congruence. apply decregex_iff in H. destruct H as (y & Y). exact (NB y Y). }
  destruct (re_match acregex (strip t)) as [e|] eqn:A; [|exfalso; exact (acregex_complete _ A _ _ _ (proj1 P))].
  apply acregex_sound in A. destruct A as (f' & m' & x' & P' & C1 & C3 & C2 & C4 & C6). destruct (preferred_unique _ _ _ _ _ _ _ P P') as (-> & -> & ->).
  rewrite C1, C3, C2, C4, C6. destruct f' as [((sg & v) & mk)|].
  - destruct P' as ((a & b & c & _ & FF & _) & _). cbn [first_part] in FF. destruct FF as (SG & _ & MK).
    assert (V : (if is_cap match sg with [] => None | _ :: _ => Some sg end (L "-") then - (v + val m' / 60 + val x' / 3600) else v + val m' / 60 + val x' / 3600) = value_of (Some (sg, v, mk)) m' x').
    { cbn [In] in SG. destruct SG as [<-|[<-|[<-|[]]]]; cbn [is_cap L list_ascii_of_string str_eqb Ascii.eqb Bool.eqb andb value_of]; ring. }
    assert (U : unit_of g r (Some (sg, v, mk)) (if is_cap (Some mk) (L ":") || is_cap (Some mk) (L " ")
              then match g with
                   | None => match match sg with [] => None | _ :: _ => Some sg end with None => UHours | Some _ => UDeg end
                   | Some true => UHours | Some false => UDeg end
              else if is_cap (Some mk) (L "hours") || is_cap (Some mk) (L "h") then UHours
              else if is_cap (Some mk) (L "degrees") || is_cap (Some mk) (L "d") then UDeg
              else if is_cap (Some mk) (L "radians") || is_cap (Some mk) (L "rad") || is_cap (Some mk) (L "rads") || is_cap (Some mk) (L "r") then URad
              else if r then URad else UDeg)).
    { assert (SX : match g with
                   | None => match match sg with [] => None | _ :: _ => Some sg end with None => UHours | Some _ => UDeg end
                   | Some true => UHours | Some false => UDeg end = sexa_unit g sg) by (destruct g as [[]|]; [| |destruct sg]; reflexivity).
      rewrite SX. clear SX. cbn [unit_of]. unfold words in MK. cbn [map In] in MK.
      destruct MK as [MK|(-> & _)]; [repeat (destruct MK as [<-|MK]); [..|contradiction]|]; cbn; tauto. }
    eexists. split; [exact U|]. cbv zeta. f_equal. f_equal. exact V.
  - eexists. split; [reflexivity|]. cbv zeta. cbn [is_cap orb value_of]. f_equal. f_equal. ring.
Qed.
Theorem C91_rejected : forall sghms radians t, (forall y, ~ bare (strip t) y) -> (forall f m x, ~ fields (strip t) f m x) -> read_angle sghms radians t = Raise ValueError.
Proof.
  intros g r t NB NF. unfold read_angle. destruct (re_match decregex (strip t)) as [c|] eqn:E.
  { exfalso. assert (H : re_match decregex (strip t) <> None) by congruence. apply decregex_iff in H. destruct H as (y & Y). exact (NB y Y). }
  destruct (re_match acregex (strip t)) as [e|] eqn:A; [|reflexivity]. apply acregex_sound in A. destruct A as (f & m & x & P & _). exfalso. exact (NF _ _ _ (proj1 P)).
Qed.
(** the preferred split exists as soon as there is one, and is unique *)
Theorem C91_preferred : forall s, (exists f m x, fields s f m x) -> exists f m x, preferred s f m x /\ forall f' m' x', preferred s f' m' x' -> f' = f /\ m' = m /\ x' = x.
Proof.
  intros s (f & m & x & F). destruct (re_match acregex s) as [e|] eqn:A; [|exfalso; exact (acregex_complete _ A _ _ _ F)].
  apply acregex_sound in A. destruct A as (f' & m' & x' & P & _). exists f', m', x'. split; [exact P|]. intros f2 m2 x2 P2. exact (preferred_unique _ _ _ _ _ _ _ P2 P).
Qed.
Theorem C91_accepted : forall sghms radians t, (exists r, read_angle sghms radians t = Ok r) <-> (exists x, bare (strip t) x) \/ (exists f m x, fields (strip t) f m x).
Proof.
  intros g r t. split.
  - intros (p & E). unfold read_angle in E. destruct (re_match decregex (strip t)) as [c|] eqn:D.
    { left. apply decregex_iff. congruence. }
    right. destruct (re_match acregex (strip t)) as [e|] eqn:A; [|discriminate]. apply acregex_sound in A. destruct A as (f & m & x & P & _). exists f, m, x. apply P.
  - intros [(x & B)|F]; [eexists; apply (C91_number g r t x B)|].
    destruct (re_match decregex (strip t)) as [c|] eqn:D.
    + assert (H : re_match decregex (strip t) <> None) by congruence. apply decregex_iff in H. destruct H as (y & Y). eexists. now apply (C91_number g r t y).
    + apply C91_preferred in F. destruct F as (f & m & x & P & _). destruct (C91_fields g r t f m x) as (u & _ & E); [|exact P|eauto].
      intros y Y. revert D. apply decregex_iff. eauto.
Qed.
(** the angle made from a text *)
Definition in_radians (u : aunit) (v : R) : R := match u with UHours => v * PI / 12 | UDeg => v * PI / 180 | URad => v end.
Theorem C91_angle : forall sghms radians t u v, read_angle sghms radians t = Ok (u, v) ->
  exists a, new_from_string sghms radians t = Ok a /\ decval a = in_radians u v /\ range a = None.
Proof. intros g r t u v E. unfold new_from_string. rewrite E. destruct u; eexists; (split; [reflexivity|]); cbn; auto. Qed.

(** ** The documented forms, 121-147 *)
(** surrounding white space *)
Definition white (l : str) : Prop := forall a, In a l -> is_space a = true.
Definition solid (s : str) : Prop := match s with [] => False | a :: _ => is_space a = false end /\ match rev s with [] => False | a :: _ => is_space a = false end.
Lemma span_white l a s : white l -> is_space a = false -> span is_space (l ++ a :: s) = (l, a :: s).
Proof. intros W A. apply span_all; [apply forallb_forall; exact W|exact A]. Qed.
Lemma strip_solid l s r : white l -> white r -> solid s -> strip (l ++ s ++ r) = s.
Proof.
  intros Wl Wr (A & B). destruct s as [|a s]; [contradiction|]. unfold strip. change ((a :: s) ++ r) with (a :: (s ++ r)). rewrite (span_white l a (s ++ r) Wl A). cbn [snd].
  unfold rstrip. change (a :: s ++ r) with ((a :: s) ++ r). rewrite rev_app_distr. destruct (rev (a :: s)) as [|b q] eqn:Q; [contradiction|].
  rewrite (span_white (rev r) b q); [|intros x X; apply Wr; now apply in_rev|exact B]. cbn [snd]. rewrite <- Q. apply rev_involutive.
Qed.
Lemma solid_app a s b : is_space a = false -> is_space b = false -> solid (a :: s ++ [b]).
Proof. intros A B. split; [exact A|]. change (a :: s ++ [b]) with ((a :: s) ++ [b]). rewrite rev_app_distr. exact B. Qed.
Lemma digit_solid a : nd a = true \/ is_sign a = true -> is_space a = false.
Proof.
  intros H. destruct (is_space a) eqn:S; [|reflexivity]. exfalso. unfold is_space in S. 
  assert (In a (map ascii_of_nat [9; 10; 11; 12; 13; 32]%nat)).
  { rewrite <- (ascii_nat_embedding a). apply in_map. set (n := nat_of_ascii a) in *. apply orb_prop in S. destruct S as [S|S].
    - apply andb_prop in S. destruct S as (S1 & S2). apply Nat.leb_le in S1, S2. cbn [In]. lia.
    - apply Nat.eqb_eq in S. cbn [In]. lia. }
  cbn [map In] in H0. repeat (destruct H0 as [<-|H0]; [destruct H; discriminate|]). contradiction.
Qed.
Lemma last_cases {A} (s : list A) : s <> [] -> exists q b, s = q ++ [b].
Proof. intros N. destruct (exists_last N) as (q & b & ->). eauto. Qed.
Lemma solid_general s : s <> [] -> (forall a r, s = a :: r -> is_space a = false) -> (forall q b, s = q ++ [b] -> is_space b = false) -> solid s.
Proof.
  intros N F G. destruct (last_cases s N) as (q & b & E). split.
  - destruct s as [|a r]; [congruence|]. now apply (F a r).
  - rewrite E, rev_app_distr. cbn. now apply (G q b).
Qed.
(** the sign applied *)
Definition signed (sg : str) (v : R) : R := if str_eqb sg (L "-") then - v else v.
Lemma bare_chars s x : bare s x -> forallb (fun a => is_sign a || nd a) s = true.
Proof.
  intros (n & v & N & H). destruct (numeral_chars _ _ N) as (C & _).
  assert (forallb (fun a => is_sign a || nd a) n = true) by (rewrite forallb_forall in C |- *; intros a A; rewrite (C a A); apply orb_true_r).
  destruct H as [(-> & _)|[(-> & _)|(-> & _)]]; [assumption| |]; cbn [L list_ascii_of_string app forallb]; now rewrite H0.
Qed.
Lemma not_bare p q a : is_sign a = false -> nd a = false -> forall y, ~ bare (p ++ a :: q) y.
Proof.
  intros S N y B. apply bare_chars in B. rewrite forallb_app in B. apply andb_prop in B. destruct B as (_ & B). cbn [forallb] in B. rewrite S, N in B. discriminate.
Qed.
Lemma text_start sg n v r : In sg [[]; L "+"; L "-"] -> numeral n v -> forall a q, sg ++ n ++ r = a :: q -> is_space a = false.
Proof.
  intros SG N a q E. destruct (numeral_chars _ _ N) as (_ & b & r' & -> & D). apply digit_solid. cbn [In] in SG.
  destruct SG as [<-|[<-|[<-|[]]]]; cbn [L list_ascii_of_string app] in E; injection E as <- _; [left; unfold nd; now rewrite D|now right|now right].
Qed.
Lemma mark_nonbare mk p q : marky mk -> (forall a, In a mk -> is_sign a = false) -> forall y, ~ bare (p ++ mk ++ q) y.
Proof.
  intros (N & F) S y. destruct mk as [|a mk]; [congruence|]. cbn [app]. apply not_bare; [apply S; now left|]. cbn [forallb] in F. apply andb_prop in F. destruct F as (F & _). unfold nnd in F. now apply negb_true_iff in F.
Qed.
Lemma words_nosign mk (T : Prop) : In mk words \/ mk = L ":" /\ T -> forall a, In a mk -> is_sign a = false.
Proof.
  intros [I'|(-> & _)]; [|intros a [<-|[]]; reflexivity]. unfold words in I'. cbn [map In] in I'.
  repeat (destruct I' as [<-|I']; [intros a A; cbn in A; repeat (destruct A as [<-|A]; [reflexivity|]); contradiction|]). contradiction.
Qed.
(** unit words and their units *)
Definition word_unit : list (str * aunit) :=
  [(L "hours", UHours); (L "h", UHours); (L "degrees", UDeg); (L "d", UDeg); (L "radians", URad); (L "rads", URad); (L "rad", URad); (L "r", URad)].
Lemma word_in mk u : In (mk, u) word_unit -> In mk words /\ forall g r sg v u', unit_of g r (Some (sg, v, mk)) u' -> u' = u.
Proof.
  intros I'. unfold word_unit in I'. cbn [In] in I'. 
  repeat (destruct I' as [I'|I']; [injection I' as <- <-; split; [cbn; tauto|]; intros g r sg v u' H; cbn [unit_of] in H;
    repeat (destruct H as [H|H]); destruct H as (H & ->); try reflexivity; exfalso; cbn in H; repeat (destruct H as [H|H]; [discriminate|]); contradiction|]). contradiction.
Qed.
Lemma last_word mk u : In (mk, u) word_unit -> forall p q b, p ++ mk = q ++ [b] -> is_space b = false.
Proof.
  intros I' p q b E. assert (b = last mk " "%char).
  { assert (mk <> []) by (cbn [word_unit In] in I'; repeat (destruct I' as [I'|I']; [injection I' as <- _; discriminate|]); contradiction).
    destruct (last_cases mk H) as (m & c & ->). rewrite app_assoc in E. apply app_inj_tail in E. destruct E as (_ & ->). now rewrite last_last. }
  subst b. cbn [word_unit In] in I'. repeat (destruct I' as [I'|I']; [injection I' as <- _; reflexivity|]). contradiction.
Qed.
(** '1.5d', '-3hours', '0.1rad': sign, number, unit word *)
Theorem C91_unit_word : forall sghms radians l sg n v mk u r, white l -> white r -> In sg [[]; L "+"; L "-"] -> numeral n v -> In (mk, u) word_unit ->
  read_angle sghms radians (l ++ (sg ++ n ++ mk) ++ r) = Ok (u, signed sg v).
Proof.
  intros g rd l sg n v mk u r Wl Wr SG N W. destruct (word_in _ _ W) as (MK & UU).
  assert (ST : strip (l ++ (sg ++ n ++ mk) ++ r) = sg ++ n ++ mk).
  { apply strip_solid; auto. apply solid_general.
    - destruct (numeral_chars _ _ N) as (_ & a & r' & -> & _). destruct sg; discriminate.
    - intros a q. apply (text_start sg n v mk SG N).
    - intros q b E. rewrite app_assoc in E. exact (last_word mk u W _ q b E). }
  assert (FF : first_field (sg ++ n ++ mk) [] sg v mk) by (split; [exact SG|]; split; [exists n; auto|now left]).
  destruct (C91_fields g rd (l ++ (sg ++ n ++ mk) ++ r) (Some (sg, v, mk)) None None) as (u' & U & E).
  - rewrite ST. intros y. rewrite <- (app_nil_r mk), !app_assoc. rewrite <- app_assoc. apply mark_nonbare; [apply (words_marky _ True); now left|apply (words_nosign _ True); now left].
  - rewrite ST. split.
    + exists (sg ++ n ++ mk), [], []. split; [now rewrite app_nil_r|]. split; [exact FF|]. split; constructor.
    + intros f' m' x' (a & b & c & E & A & B & C). split; [discriminate|]. intros FP. destruct f' as [((sg' & v') & mk')|]; [|exfalso; intuition congruence].
      cbn [first_part] in A. rewrite <- (app_nil_r (sg ++ n ++ mk)) in E.
      destruct (first_unique _ _ _ _ _ _ _ _ _ _ E FF A) as (_ & _ & _ & E2); [exact I|apply starts_app; [exact (next_starts _ _ _ B)|exact (next_starts _ _ _ C)]|].
      symmetry in E2. apply app_eq_nil in E2. destruct E2 as (-> & ->). intros M. exfalso. apply M. now apply (next_some_none _ _ _ B).
  - rewrite E. f_equal. f_equal; [now apply (UU g rd sg v)|]. cbn [value_of val]. unfold signed. destruct (str_eqb sg (L "-")); field.
Qed.
(** three numbers *)
Lemma last_in p (q : str) b : p = q ++ [b] -> In b p.
Proof. intros ->. apply in_or_app. right. now left. Qed.
Lemma three g rd l sg n1 v1 mk n2 v2 mm n3 v3 ms r : white l -> white r -> In sg [[]; L "+"; L "-"] ->
  numeral n1 v1 -> numeral n2 v2 -> numeral n3 v3 -> (In mk words \/ mk = L ":" /\ tail (n2 ++ mm ++ n3 ++ ms)) -> In mm minute_marks -> In ms second_marks ->
  exists u, unit_of g rd (Some (sg, v1, mk)) u /\ read_angle g rd (l ++ (sg ++ n1 ++ mk ++ n2 ++ mm ++ n3 ++ ms) ++ r) = Ok (u, signed sg (v1 + v2 / 60 + v3 / 3600)).
Proof.
  intros Wl Wr SG N1 N2 N3 MK MM MS.
  assert (ST : strip (l ++ (sg ++ n1 ++ mk ++ n2 ++ mm ++ n3 ++ ms) ++ r) = sg ++ n1 ++ mk ++ n2 ++ mm ++ n3 ++ ms).
  { apply strip_solid; auto. apply solid_general.
    - destruct (numeral_chars _ _ N1) as (_ & a & r' & -> & _). destruct sg; discriminate.
    - intros a q. apply (text_start sg n1 v1 _ SG N1).
    - intros q b E. assert (X : exists p', p' ++ (n3 ++ ms) = q ++ [b]) by (exists (sg ++ n1 ++ mk ++ n2 ++ mm); rewrite <- E, <- !app_assoc; reflexivity).
      destruct X as (p' & X). destruct (numeral_chars _ _ N3) as (C & a & r' & EN & _). destruct (last_cases (n3 ++ ms)) as (q' & b' & Q); [rewrite EN; discriminate|].
      rewrite Q, app_assoc in X. apply app_inj_tail in X. destruct X as (_ & ->). apply last_in in Q. apply in_app_or in Q. destruct Q as [Q|Q].
      + apply digit_solid. left. rewrite forallb_forall in C. now apply C.
      + cbn in MS. destruct MS as [<-|[<-|[<-|[]]]]; cbn in Q; destruct Q as [<-|[]] || contradiction; reflexivity. }
  destruct (C91_fields g rd (l ++ (sg ++ n1 ++ mk ++ n2 ++ mm ++ n3 ++ ms) ++ r) (Some (sg, v1, mk)) (Some v2) (Some v3)) as (u & U & E).
  - rewrite ST. intros y. rewrite (app_assoc sg n1). apply mark_nonbare; [exact (words_marky _ _ MK)|exact (words_nosign _ _ MK)].
  - rewrite ST. split; [|intros; split; [discriminate|intros; discriminate]].
    exists (sg ++ n1 ++ mk), (n2 ++ mm), (n3 ++ ms). split; [now rewrite <- !app_assoc|]. split; [|split; now constructor].
    split; [exact SG|]. split; [exists n1; auto|]. rewrite <- app_assoc. exact MK.
  - exists u. split; [exact U|]. rewrite E. f_equal. f_equal. cbn [value_of val]. unfold signed. destruct (str_eqb sg (L "-")); ring.
Qed.
(** '12h34m56.7s', '-1d2m3.4s', "-1d2'3": the first number is followed by a unit word *)
Theorem C91_three : forall sghms radians l sg n1 v1 mk u n2 v2 mm n3 v3 ms r, white l -> white r -> In sg [[]; L "+"; L "-"] ->
  numeral n1 v1 -> numeral n2 v2 -> numeral n3 v3 -> In (mk, u) word_unit -> In mm minute_marks -> In ms second_marks ->
  read_angle sghms radians (l ++ (sg ++ n1 ++ mk ++ n2 ++ mm ++ n3 ++ ms) ++ r) = Ok (u, signed sg (v1 + v2 / 60 + v3 / 3600)).
Proof.
  intros g rd l sg n1 v1 mk u n2 v2 mm n3 v3 ms r Wl Wr SG N1 N2 N3 W MM MS. destruct (word_in _ _ W) as (MK & UU).
  destruct (three g rd l sg n1 v1 mk n2 v2 mm n3 v3 ms r) as (u' & U & E); auto. rewrite E. f_equal. f_equal. now apply (UU g rd sg v1).
Qed.
Lemma sexa_only g rd sg v mk u : In mk [L ":"; L " "] -> unit_of g rd (Some (sg, v, mk)) u -> u = sexa_unit g sg.
Proof.
  intros I' H. cbn [In] in I'. destruct I' as [<-|[<-|[]]]; cbn [unit_of] in H; repeat (destruct H as [H|H]); destruct H as (H & ->); try reflexivity; exfalso; cbn in H; repeat (destruct H as [H|H]; [discriminate|]); contradiction.
Qed.
(** '12:34:56.7', '-1:2:3': whole minutes *)
Theorem C91_colons : forall sghms radians l sg n1 v1 n2 n3 v3 r, white l -> white r -> In sg [[]; L "+"; L "-"] ->
  numeral n1 v1 -> n2 <> [] -> all_digits n2 -> numeral n3 v3 ->
  read_angle sghms radians (l ++ (sg ++ n1 ++ L ":" ++ n2 ++ L ":" ++ n3) ++ r) = Ok (sexa_unit sghms sg, signed sg (v1 + INR (place n2) / 60 + v3 / 3600)).
Proof.
  intros g rd l sg n1 v1 n2 n3 v3 r Wl Wr SG N1 E2 D2 N3.
  assert (T : tail (n2 ++ L ":" ++ n3 ++ [])).
  { rewrite app_nil_r. assert (NIL : all_digits []) by (intros ? []).
    destruct N3 as [a N A|a b N A B].
    - exists n2, a, [], []. cbn [app]. rewrite app_nil_r. cbn; auto 12.
    - exists n2, a, (L "."), b. cbn; auto 12. }
  destruct (three g rd l sg n1 v1 (L ":") n2 (INR (place n2)) (L ":") n3 v3 [] r) as (u & U & E); auto; [now constructor|cbn; auto|cbn; auto|].
  rewrite app_nil_r in E. rewrite E. f_equal. f_equal. apply (sexa_only g rd sg v1 (L ":")); [cbn; auto|exact U].
Qed.
(** '12 34 56.7' *)
Theorem C91_blanks : forall sghms radians l sg n1 v1 n2 v2 n3 v3 r, white l -> white r -> In sg [[]; L "+"; L "-"] -> numeral n1 v1 -> numeral n2 v2 -> numeral n3 v3 ->
  read_angle sghms radians (l ++ (sg ++ n1 ++ L " " ++ n2 ++ L " " ++ n3) ++ r) = Ok (sexa_unit sghms sg, signed sg (v1 + v2 / 60 + v3 / 3600)).
Proof.
  intros g rd l sg n1 v1 n2 v2 n3 v3 r Wl Wr SG N1 N2 N3.
  destruct (three g rd l sg n1 v1 (L " ") n2 v2 (L " ") n3 v3 [] r) as (u & U & E); auto; [left; cbn; tauto|cbn; tauto|cbn; tauto|].
  rewrite app_nil_r in E. rewrite E. f_equal. f_equal. apply (sexa_only g rd sg v1 (L " ")); [cbn; auto|exact U].
Qed.
(** '12.5', '-3' with blanks around *)
Theorem C91_plain : forall sghms radians l sg n v r, white l -> white r -> In sg [[]; L "+"; L "-"] -> numeral n v ->
  read_angle sghms radians (l ++ (sg ++ n) ++ r) = Ok (default_unit radians, signed sg v).
Proof.
  intros g rd l sg n v r Wl Wr SG N. apply C91_number. rewrite strip_solid; auto.
  - exists n, v. split; [exact N|]. cbn [In] in SG. destruct SG as [<-|[<-|[<-|[]]]]; [left|right; left|right; right]; auto.
  - destruct (numeral_chars _ _ N) as (C & a & r' & EN & _). apply solid_general.
    + rewrite EN. destruct sg; discriminate.
    + intros b q. rewrite <- (app_nil_r n). apply (text_start sg n v [] SG N).
    + intros q b Q. destruct (last_cases n) as (q' & b' & Q'); [rewrite EN; discriminate|]. rewrite Q', app_assoc in Q. apply app_inj_tail in Q. destruct Q as (_ & <-).
      apply digit_solid. left. rewrite forallb_forall in C. apply C. now apply (last_in n q').
Qed.

(** ** What does not hold.  A text of two numbers is not degrees (hours) and minutes; the empty text is an angle; a negative number of
    hours printed by getHmsStr has signs in the later fields, which are not read *)
Theorem C91_two_numbers_refuted : read_angle None false (L "12:30") = Ok (UDeg, 12 / 60 + 30 / 3600) /\ read_angle None false (L "12 30") = Ok (UHours, 12 + 30 / 3600).
Proof.
  split; cbv -[Rplus Rmult Ropp Rinv Rdiv Rminus IZR]; f_equal; f_equal; field.
Qed.
Theorem C91_empty_refuted : read_angle None false (L "  ") = Ok (UDeg, 0).
Proof. cbv -[Rplus Rmult Ropp Rinv Rdiv Rminus IZR]; f_equal; f_equal; field. Qed.
Theorem C91_spaced_units_refuted : read_angle None false (L "12h 30m 15s") = Raise ValueError /\ read_angle None false (L "12d 30'") = Raise ValueError.
Proof. split; reflexivity. Qed.
Theorem C91_negative_hms_refuted : read_angle None false (L "-12h-30m-5.00s") = Raise ValueError.
Proof. reflexivity. Qed.
(** one degree, 2 minutes and 30.5 seconds, with a sign and blanks *)
Example C91_ex : read_angle None false (L " -1d2'30.5" ++ [""""%char]) = Ok (UDeg, signed (L "-") (1 + 2 / 60 + (INR 30 + INR 5 / 10 ^ 1) / 3600)).
Proof.
  apply (C91_three None false (L " ") (L "-") (L "1") 1 (L "d") UDeg (L "2") 2 (L "'") (L "30.5") _ [""""%char] []); try (cbn; tauto); try (intros a A; cbn in A; (contradiction || (destruct A as [<-|[]]; reflexivity))).
  - change 1 with (INR (place (L "1"))). constructor; [discriminate|]. intros a [<-|[]]. cbn. tauto.
  - replace 2 with (INR (place (L "2"))) by (change (place (L "2")) with 2%nat; cbn [INR]; ring). constructor; [discriminate|]. intros a [<-|[]]. cbn. tauto.
  - apply (n_frac (L "30") (L "5")); [discriminate| |]; intros a A; cbn in A; repeat (destruct A as [<-|A]; [cbn; tauto|]); contradiction.
Qed.
