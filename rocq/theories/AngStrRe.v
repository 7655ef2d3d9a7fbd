(** * AngStrRe: the matcher accepts exactly the language of the expression; which texts are angles *)
From Coq Require Import List Bool Arith Reals ZArith String Ascii Lia Lra.
From Verif Require Import PyBase PubModel AngleModel AngStrModel.
Import ListNotations.
Open Scope R_scope.

(** ** Declarative semantics: [r] matches the text between [s] and its rest [t], captures going from [c] to [d] *)
Inductive matches : re -> str -> caps -> str -> caps -> Prop :=
| m_eps s c : matches Eps s c s c
| m_chr p a s c : p a = true -> matches (Chr p) (a :: s) c s c
| m_many p w s c : forallb p w = true -> matches (Many p) (w ++ s) c s c
| m_seq a b s c t d u e : matches a s c t d -> matches b t d u e -> matches (Seq a b) s c u e
| m_left a b s c t d : matches a s c t d -> matches (Alt a b) s c t d
| m_right a b s c t d : matches b s c t d -> matches (Alt a b) s c t d
| m_grp n a s c t d : matches a s c t d -> matches (Grp n a) s c t (setc d n (consumed s t))
| m_look a s c t d : matches a s c t d -> matches (Look a) s c s c
| m_end c : matches End [] c [] c.

Lemma many_sound p s : forall k x, many p s k = Some x -> exists w t, s = w ++ t /\ forallb p w = true /\ k t = Some x.
Proof.
  induction s as [|a s IH]; intros k x E; cbn [many] in E; [exists [], []; auto|].
  destruct (p a) eqn:P; [|exists [], (a :: s); auto].
  destruct (many p s k) as [y|] eqn:M.
  - injection E as <-. destruct (IH k y M) as (w & t & -> & F & K). exists (a :: w), t. cbn [forallb app]. rewrite P. auto.
  - exists [], (a :: s). auto.
Qed.
Lemma many_none p s : forall k, many p s k = None -> forall w t, s = w ++ t -> forallb p w = true -> k t = None.
Proof.
  induction s as [|a s IH]; intros k E w t S F; cbn [many] in E.
  - destruct w; [|discriminate]. cbn in S. now subst.
  - destruct (p a) eqn:P.
    + destruct (many p s k) as [y|] eqn:M; [discriminate|]. destruct w as [|b w]; [cbn in S; now subst|].
      cbn [app] in S. injection S as -> ->. cbn [forallb] in F. apply andb_prop in F. now apply (IH k M w t).
    + destruct w as [|b w]; [cbn in S; now subst|]. cbn [app] in S. injection S as -> ->. cbn [forallb] in F. rewrite P in F. discriminate.
Qed.
(** what the matcher finds is a match, and if it finds none there is none: no hypotheses on the lookahead *)
Lemma run_sound r : forall s c k x, run r s c k = Some x -> exists t d, matches r s c t d /\ k t d = Some x.
Proof.
  induction r as [|p|p|a IHa b IHb|a IHa b IHb|n a IHa|a IHa|]; intros s c k x E; cbn [run] in E.
  - exists s, c. split; [constructor|exact E].
  - destruct s as [|a s]; [discriminate|]. destruct (p a) eqn:P; [|discriminate]. exists s, c. split; [now constructor|exact E].
  - apply many_sound in E. destruct E as (w & t & -> & F & K). exists t, c. split; [now constructor|exact K].
  - apply IHa in E. destruct E as (t & d & A & E). apply IHb in E. destruct E as (u & e & B & E). exists u, e. split; [econstructor; eauto|exact E].
  - destruct (run a s c k) as [y|] eqn:A.
    + injection E as <-. apply IHa in A. destruct A as (t & d & A & K). exists t, d. split; [now constructor|exact K].
    + apply IHb in E. destruct E as (t & d & B & K). exists t, d. split; [now apply m_right|exact K].
  - apply IHa in E. destruct E as (t & d & A & K). exists t, (setc d n (consumed s t)). split; [now constructor|exact K].
  - destruct (run a s c (fun _ d => Some d)) as [d|] eqn:A; [|discriminate]. apply IHa in A. destruct A as (t & d' & A & K). 
    exists s, c. split; [econstructor; exact A|exact E].
  - destruct s; [|discriminate]. exists [], c. split; [constructor|exact E].
Qed.
Lemma run_complete r : forall s c k, run r s c k = None -> forall t d, matches r s c t d -> k t d = None.
Proof.
  induction r as [|p|p|a IHa b IHb|a IHa b IHb|n a IHa|a IHa|]; intros s c k E t d M; inversion M; subst; cbn [run] in E.
  - exact E.
  - match goal with H : p _ = true |- _ => rewrite H in E end. exact E.
  - now apply (many_none p _ _ E w t).
  - eapply IHa in E; [|eassumption]. cbv beta in E. eapply IHb in E; eassumption.
  - destruct (run a s c k) eqn:A; [discriminate|]. eapply IHa in A; eassumption.
  - destruct (run a s c k) eqn:A; [discriminate|]. eapply IHb in E; eassumption.
  - eapply IHa in E; [|eassumption]. exact E.
  - destruct (run a t d (fun _ e => Some e)) as [y|] eqn:A; [exact E|]. eapply IHa in A; [|eassumption]. discriminate.
  - exact E.
Qed.
(** the first match, with its captures *)
Theorem matcher_spec r s : 
  (forall c, re_match r s = Some c -> exists t, matches r s (fun _ => None) t c) /\
  ((exists t c, matches r s (fun _ => None) t c) <-> re_match r s <> None).
Proof.
  unfold re_match. split.
  - intros c E. apply run_sound in E. destruct E as (t & d & M & K). injection K as <-. eauto.
  - split.
    + intros (t & c & M) E. apply (run_complete _ _ _ _ E) in M. discriminate.
    + intros N. destruct (run r s _ _) as [c|] eqn:E; [|congruence]. apply run_sound in E. destruct E as (t & d & M & _). eauto.
Qed.

(** ** Specification of the accepted texts *)
Definition digs : str := L "0123456789".
Definition all_digits (s : str) : Prop := forall a, In a s -> In a digs.
(** the number a string of digits stands for: each digit times its power of ten *)
Fixpoint place (s : str) : nat := match s with [] => 0%nat | a :: r => ((nat_of_ascii a - nat_of_ascii "0"%char) * 10 ^ List.length r + place r)%nat end.
(** numerals: 12, 12., 12.5 *)
Inductive numeral : str -> R -> Prop :=
| n_int a : a <> [] -> all_digits a -> numeral a (INR (place a))
| n_frac a b : a <> [] -> all_digits a -> all_digits b -> numeral (a ++ L "." ++ b) (INR (place a) + INR (place b) / 10 ^ List.length b).
(** what must follow a colon after the first number: ##:##.## up to the end *)
Definition tail (s : str) : Prop := exists a b c d, a <> [] /\ b <> [] /\ all_digits a /\ all_digits b /\ all_digits d /\ In c [[]; L "."] /\ s = a ++ L ":" ++ b ++ c ++ d.
Definition words : list str := map L ["hours"; "h"; "degrees"; "d"; "radians"; "rads"; "rad"; "r"; " "]%string.
(** the first field: an optional sign, a numeral and a mark *)
Definition first_field (w rest : str) (sg : str) (v : R) (mk : str) : Prop :=
  In sg [[]; L "+"; L "-"] /\ (exists n, numeral n v /\ w = sg ++ n ++ mk) /\ (In mk words \/ mk = L ":" /\ tail rest).
Definition first_part (w rest : str) (f : option (str * R * str)) : Prop :=
  match f with None => w = [] | Some (sg, v, mk) => first_field w rest sg v mk end.
Inductive next_field (marks : list str) : str -> option R -> Prop :=
| g_none : next_field marks [] None
| g_some n v mk : numeral n v -> In mk marks -> next_field marks (n ++ mk) (Some v).
Definition minute_marks : list str := map L ["m"; "'"; ":"; " "]%string.
Definition second_marks : list str := [L "s"; [""""%char]; []].
(** a text split into its (at most) three fields *)
Definition fields (s : str) (f : option (str * R * str)) (m x : option R) : Prop :=
  exists a b c, s = a ++ b ++ c /\ first_part a (b ++ c) f /\ next_field minute_marks b m /\ next_field second_marks c x.
(** some texts can be split in several ways ("12 30" has a first field and seconds, or minutes and seconds): the split that
    has a first field is preferred, then the one that has minutes *)
Definition preferred (s : str) (f : option (str * R * str)) (m x : option R) : Prop :=
  fields s f m x /\ forall f' m' x', fields s f' m' x' -> (f' <> None -> f <> None) /\ ((f' <> None <-> f <> None) -> m' <> None -> m <> None).
(** a bare number *)
Definition bare (s : str) (x : R) : Prop := exists n v, numeral n v /\ (s = n /\ x = v \/ s = L "+" ++ n /\ x = v \/ s = L "-" ++ n /\ x = - v).
Definition val (o : option R) : R := match o with Some v => v | None => 0 end.
Definition default_unit (radians : bool) : aunit := if radians then URad else UDeg.
(** sexagesimal texts without unit: hours or degrees by [sghms], and if that is not given, degrees when there is a sign *)
Definition sexa_unit (sghms : option bool) (sg : str) : aunit :=
  match sghms with Some true => UHours | Some false => UDeg | None => match sg with [] => UHours | _ => UDeg end end.
Definition unit_of (sghms : option bool) (radians : bool) (f : option (str * R * str)) (u : aunit) : Prop :=
  match f with
  | None => u = default_unit radians
  | Some (sg, _, mk) =>
      (In mk [L ":"; L " "] /\ u = sexa_unit sghms sg) \/ (In mk [L "hours"; L "h"] /\ u = UHours) \/
      (In mk [L "degrees"; L "d"] /\ u = UDeg) \/ (In mk [L "radians"; L "rads"; L "rad"; L "r"] /\ u = URad)
  end.
Definition value_of (f : option (str * R * str)) (m x : option R) : R :=
  match f with
  | None => val m / 60 + val x / 3600
  | Some (sg, v, _) => (if str_eqb sg (L "-") then -1 else 1) * (v + val m / 60 + val x / 3600)
  end.

(** ** Lemmas *)
Lemma digits_iff a : In a digs <-> is_digit a = true.
Proof.
  split.
  - intros H. repeat (destruct H as [<-|H]; [reflexivity|]). contradiction.
  - intros H. unfold is_digit in H. apply andb_prop in H. destruct H as (A & B). apply Nat.leb_le in A, B.
    rewrite <- (ascii_nat_embedding a). set (n := nat_of_ascii a) in *. clearbody n. unfold digs, L. cbn [list_ascii_of_string].
    do 48 (destruct n as [|n]; [lia|]). do 10 (destruct n as [|n]; [cbn; tauto|]). lia.
Qed.
Lemma all_iff s : all_digits s <-> forallb is_digit s = true.
Proof. unfold all_digits. rewrite forallb_forall. split; intros H a A; apply digits_iff; now apply H. Qed.
Lemma dval_place s : dval s = place s.
Proof.
  unfold dval. assert (G : forall v, fold_left (fun v a => (v * 10 + dig a)%nat) s v = (v * 10 ^ List.length s + place s)%nat); [|now rewrite G].
  induction s as [|a s IH]; intros v; cbn [fold_left place List.length]; [cbn; lia|]. rewrite IH. unfold dig. change (nat_of_ascii "0"%char) with 48%nat.
  rewrite Nat.pow_succ_r'. nia.
Qed.
Lemma span_all p a r : forallb p a = true -> (match r with [] => True | x :: _ => p x = false end) -> span p (a ++ r) = (a, r).
Proof.
  intros A R. induction a as [|x a IH]; cbn [app span]; [destruct r as [|x r]; [reflexivity|]; cbn [span]; now rewrite R|].
  cbn [forallb] in A. apply andb_prop in A. destruct A as (X & A). rewrite X, (IH A). reflexivity.
Qed.
Lemma float_numeral n v : numeral n v -> pyfloat n = v.
Proof.
  intros [a N A|a b N A B]; unfold pyfloat.
  - rewrite <- (app_nil_r a) at 1. rewrite (span_all is_digit a []) by (try exact I; now apply all_iff). rewrite dval_place. lra.
  - rewrite (span_all is_digit a (L "." ++ b)) by (try reflexivity; now apply all_iff). cbn [L list_ascii_of_string app]. now rewrite !dval_place.
Qed.
Lemma many_matches p s c t d : matches (Many p) s c t d <-> d = c /\ exists w, s = w ++ t /\ forallb p w = true.
Proof. split; [intros M; inversion M; subst; eauto|]. intros (-> & w & -> & F). now constructor. Qed.
Lemma chr_matches p s c t d : matches (Chr p) s c t d <-> d = c /\ exists a, s = a :: t /\ p a = true.
Proof. split; [intros M; inversion M; subst; eauto|]. intros (-> & a & -> & F). now constructor. Qed.
Lemma plus_matches p s c t d : matches (plus p) s c t d <-> d = c /\ exists w, w <> [] /\ s = w ++ t /\ forallb p w = true.
Proof.
  unfold plus. split.
  - intros M. inversion M; subst. match goal with H : matches (Chr p) _ _ _ _, H' : matches (Many p) _ _ _ _ |- _ => apply chr_matches in H; apply many_matches in H'; destruct H as (-> & a & -> & P), H' as (-> & w & -> & F) end.
    split; [reflexivity|]. exists (a :: w). split; [discriminate|]. split; [reflexivity|]. cbn [forallb]. now rewrite P.
  - intros (-> & w & N & -> & F). destruct w as [|a w]; [congruence|]. cbn [forallb] in F. apply andb_prop in F. destruct F as (P & F).
    eapply m_seq; [apply chr_matches; split; [reflexivity|]; exists a; split; [reflexivity|exact P]|]. apply many_matches. split; [reflexivity|]. exists w. auto.
Qed.
Lemma opt_matches r s c t d : matches (opt r) s c t d <-> matches r s c t d \/ (t = s /\ d = c).
Proof.
  unfold opt. split.
  - intros M. inversion M; subst; [now left|]. right. match goal with H : matches Eps _ _ _ _ |- _ => inversion H; subst end. auto.
  - intros [M|(-> & ->)]; [now apply m_left|apply m_right; constructor].
Qed.
Lemma seq_matches a b s c u e : matches (Seq a b) s c u e <-> exists t d, matches a s c t d /\ matches b t d u e.
Proof. split; [intros M; inversion M; subst; eauto|]. intros (t & d & A & B). econstructor; eauto. Qed.
Lemma end_matches s c t d : matches End s c t d <-> s = [] /\ t = [] /\ d = c.
Proof. split; [intros M; inversion M; subst; auto|]. intros (-> & -> & ->). constructor. Qed.
Lemma lit_matches w : forall s c t d, matches (lit w) s c t d <-> d = c /\ s = w ++ t.
Proof.
  induction w as [|a w IH]; intros s c t d; [cbn [lit app]; split; [intros M; inversion M; subst; auto|intros (-> & ->); constructor]|].
  assert (E : matches (lit (a :: w)) s c t d <-> matches (Seq (Chr (Ascii.eqb a)) (lit w)) s c t d).
  { destruct w; [|reflexivity]. cbn [lit]. rewrite seq_matches. split.
    - intros M. exists t, d. split; [exact M|constructor].
    - intros (t' & d' & M & N). inversion N; subst. exact M. }
  rewrite E, seq_matches. split.
  - intros (u & e & A & B). apply chr_matches in A. destruct A as (-> & b & -> & P). apply Ascii.eqb_eq in P. subst b. apply IH in B. destruct B as (-> & ->). auto.
  - intros (-> & ->). exists (w ++ t), c. split; [apply chr_matches; split; [reflexivity|]; exists a; split; [reflexivity|apply Ascii.eqb_refl]|]. now apply IH.
Qed.
Lemma num_matches s c t d : matches num s c t d <-> d = c /\ exists w, s = w ++ t /\ exists v, numeral w v.
Proof.
  unfold num. rewrite seq_matches. split.
  - intros (u & e & A & B). apply plus_matches in A. destruct A as (-> & w & N & -> & F). apply opt_matches in B. destruct B as [B|(-> & ->)].
    + apply seq_matches in B. destruct B as (u' & e' & B1 & B2). apply chr_matches in B1. destruct B1 as (-> & a & -> & P).
      apply many_matches in B2. destruct B2 as (-> & b & -> & G). unfold is_dot in P. apply Ascii.eqb_eq in P. subst a. split; [reflexivity|].
      exists (w ++ L "." ++ b). split; [now rewrite <- !app_assoc|]. eexists. constructor; [exact N| |]; now apply all_iff.
    + split; [reflexivity|]. exists w. split; [reflexivity|]. eexists. constructor; [exact N|now apply all_iff].
  - intros (-> & w & -> & v & M). destruct M as [a N A|a b N A B].
    + exists t, c. split; [apply plus_matches; split; [reflexivity|]; exists a; repeat split; auto; now apply all_iff|]. apply opt_matches. auto.
    + exists (L "." ++ b ++ t), c. split; [apply plus_matches; split; [reflexivity|]; exists a; rewrite <- !app_assoc; repeat split; auto; now apply all_iff|].
      apply opt_matches. left. apply seq_matches. exists (b ++ t), c. split; [apply chr_matches; split; [reflexivity|]; now exists "."%char|].
      apply many_matches. split; [reflexivity|]. exists b. split; [reflexivity|now apply all_iff].
Qed.
Lemma alt_matches a b s c t d : matches (Alt a b) s c t d <-> matches a s c t d \/ matches b s c t d.
Proof. split; [intros M; inversion M; subst; auto|]. intros [M|M]; [now apply m_left|now apply m_right]. Qed.
Lemma alts_matches l s c t d : l <> [] -> (matches (alts l) s c t d <-> exists r, In r l /\ matches r s c t d).
Proof.
  intros N. induction l as [|r l IH]; [congruence|]. destruct l as [|r' l].
  - cbn [alts]. split; [intros M; exists r; cbn; auto|]. intros (r0 & [<-|[]] & M). exact M.
  - change (alts (r :: r' :: l)) with (Alt r (alts (r' :: l))). split.
    + intros M. apply alt_matches in M. destruct M as [M|M]; [exists r; cbn; auto|]. apply IH in M; [|discriminate]. destruct M as (r0 & I' & M'). exists r0. split; [now right|exact M'].
    + intros (r0 & [<-|I'] & M); [now apply m_left|]. apply m_right, IH; [discriminate|eauto].
Qed.
Lemma look_matches a s c t d : matches (Look a) s c t d <-> t = s /\ d = c /\ exists t' d', matches a s c t' d'.
Proof. split; [intros M; inversion M; subst; eauto|]. intros (-> & -> & t' & d' & M). econstructor; exact M. Qed.
Lemma ahead_matches s c t d : matches ahead s c t d <-> d = c /\ t = s /\ tail s.
Proof.
  unfold ahead. split.
  - intros M. apply look_matches in M. destruct M as (-> & -> & t' & d' & B). split; [reflexivity|]. split; [reflexivity|].
    apply seq_matches in B. destruct B as (u1 & e1 & B1 & B). apply plus_matches in B1. destruct B1 as (-> & a & Na & -> & Fa).
    apply seq_matches in B. destruct B as (u2 & e2 & B1 & B). apply lit_matches in B1. destruct B1 as (-> & ->).
    apply seq_matches in B. destruct B as (u3 & e3 & B1 & B). apply plus_matches in B1. destruct B1 as (-> & b & Nb & -> & Fb).
    apply seq_matches in B. destruct B as (u4 & e4 & B1 & B). apply opt_matches in B1.
    apply seq_matches in B. destruct B as (u5 & e5 & B2 & B). apply many_matches in B2. destruct B2 as (-> & w & -> & Fw). apply end_matches in B. destruct B as (-> & -> & ->).
    rewrite app_nil_r in B1. destruct B1 as [B1|(-> & ->)].
    + apply chr_matches in B1. destruct B1 as (-> & x & -> & P). unfold is_dot in P. apply Ascii.eqb_eq in P. subst x.
      exists a, b, (L "."), w. repeat split; auto; try (now apply all_iff). cbn; auto.
    + exists a, b, [], u3. repeat split; auto; try (now apply all_iff). cbn; auto.
  - intros (-> & -> & a & b & x & w & Na & Nb & Fa & Fb & Fw & X & ->). apply all_iff in Fa, Fb, Fw.
    eapply m_look. apply seq_matches. eexists _, _. split; [apply plus_matches; split; [reflexivity|]; exists a; split; [exact Na|]; split; [reflexivity|exact Fa]|].
    apply seq_matches. eexists _, _. split; [apply lit_matches; split; reflexivity|].
    apply seq_matches. eexists _, _. split; [apply plus_matches; split; [reflexivity|]; exists b; split; [exact Nb|]; split; [reflexivity|exact Fb]|].
    apply seq_matches. exists w, c. split; [|apply seq_matches; exists [], c; split; [apply many_matches; split; [reflexivity|]; exists w; split; [now rewrite app_nil_r|exact Fw]|constructor]].
    apply opt_matches. destruct X as [<-|[<-|[]]]; [now right|left]. apply chr_matches. split; [reflexivity|]. now exists "."%char.
Qed.
