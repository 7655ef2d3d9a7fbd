(** * ObsTimeProps: C17 (TAI-UTC), C18 (epochs) *)
From Coq Require Import ZArith QArith List Bool Lia Lqa Field.
From Verif Require Import PyBase CalendarModel CalendarSpec CalendarProofs CalendarDays CalendarTime ObsTimeModel.
Import ListNotations.
Open Scope Q_scope.

(** ** C18 *)
Theorem C18_epoch_inverse : forall julian mjd e, jd_to_epoch julian mjd (epoch_to_jd julian mjd (ENum e)) == e.
Proof. intros [] [] e; unfold jd_to_epoch, epoch_to_jd, epoch_formula; cbv zeta; field; discriminate. Qed.
Print Assumptions C18_epoch_inverse.
Theorem C18_jd_inverse : forall julian mjd jd, epoch_to_jd julian mjd (ENum (jd_to_epoch julian mjd jd)) == jd.
Proof. intros [] [] jd; unfold jd_to_epoch, epoch_to_jd, epoch_formula; cbv zeta; field; discriminate. Qed.
Print Assumptions C18_jd_inverse.
(** Julian years have 365.25 days and J2000.0 is JD 2451545; Besselian years have
    365.242198781 days and B1900.0 is JD 2415020.31352. *)
Theorem C18_definition : forall e,
  epoch_to_jd true false (ENum e) == 2451545 + (e - 2000) * (36525 # 100) /\
  epoch_to_jd false false (ENum e) == (241502031352 # 100000) + (e - 1900) * (365242198781 # 1000000000) /\
  (forall julian, epoch_to_jd julian true (ENum e) == epoch_to_jd julian false (ENum e) - (24000005 # 10)).
Proof.
  intros e. split; [|split]; [| |intros []]; unfold epoch_to_jd, epoch_formula, mjdoffset; ring.
Qed.
Print Assumptions C18_definition.
(** A leading J or B overrides the argument. *)
Theorem C18_letter : forall julian mjd e,
  epoch_to_jd julian mjd (EStr LJ e) = epoch_to_jd true mjd (ENum e) /\
  epoch_to_jd julian mjd (EStr LB e) = epoch_to_jd false mjd (ENum e) /\
  epoch_to_jd julian mjd (EStr Lnone e) = epoch_to_jd julian mjd (ENum e).
Proof. repeat split. Qed.
Example C18_ex : epoch_to_jd true false (EStr LB 1950) == (2433282423 # 1000) + (4590500 # 10000000000)
  /\ jd_to_epoch true true (515445#10) == 2000.
Proof. split; reflexivity. Qed.
(** An array of epoch strings ignores mjd=True. *)
Theorem C18_string_array_mjd_refuted : ~ Forall2 Qeq (epoch_array_to_jd true true [(LJ, 2000)]) [epoch_to_jd true true (EStr LJ 2000)].
Proof. intros H. inversion H as [|? ? ? ? E _]. discriminate. Qed.
(** jd_to_epoch(mjd=True) changes the caller's float array. *)
Theorem C18_overwrites_argument_refuted : ~ Forall2 Qeq (jd_array_after true [0]) [0].
Proof. intros H. inversion H as [|? ? ? ? E _]. discriminate. Qed.

(** ** C17 *)
(** [v] is the offset of the last table entry before month [m] (counted as 12*year+month) *)
Definition last_before (m : Z) (v : Q) : Prop :=
  exists e, In (e, v) dat_changes /\ (e < m)%Z /\ forall e' v', In (e', v') dat_changes -> (e' < m)%Z -> (e' <= e)%Z.

Fixpoint sortedZ (l : list (Z * Q)) : Prop :=
  match l with [] => True | (a, _) :: r => match r with [] => True | (b, _) :: _ => (a < b)%Z /\ sortedZ r end end.
Lemma sortedZ_lt l : forall a v, sortedZ ((a, v) :: l) -> forall e w, In (e, w) l -> (a < e)%Z.
Proof.
  induction l as [|(b, u) l IH]; intros a v Hs e w Hin; [destruct Hin|]. cbn in Hs. destruct Hs as (H1 & H2).
  destruct Hin as [E|Hin]; [injection E as -> ->; lia|]. specialize (IH b u H2 e w Hin). lia.
Qed.
Lemma sortedZ_tl a l : sortedZ (a :: l) -> sortedZ l.
Proof. destruct a, l as [|(b, u) l]; cbn; tauto. Qed.
Lemma count_last l m n : sortedZ l -> length (filter (fun e => (fst e <? m)%Z) l) = S n ->
  exists e v, nth_error l n = Some (e, v) /\ (e < m)%Z /\ forall e' v', In (e', v') l -> (e' < m)%Z -> (e' <= e)%Z.
Proof.
  revert n. induction l as [|(a, u) l IH]; intros n Hs Hl; [discriminate|]. cbn [filter fst] in Hl.
  destruct (Z.ltb_spec a m) as [L|L].
  - cbn in Hl. injection Hl as Hl. destruct n as [|n].
    + exists a, u. split; [reflexivity|]. split; [lia|]. intros e' v' [E|Hin] Hlt; [injection E; lia|]. exfalso.
      assert (In (e', v') (filter (fun e => (fst e <? m)%Z) l)) as Hf by (apply filter_In; split; auto; now apply Z.ltb_lt).
      apply length_zero_iff_nil in Hl. rewrite Hl in Hf. destruct Hf.
    + destruct (IH n (sortedZ_tl _ _ Hs) Hl) as (e & v & E & Hlt & Hmax). exists e, v. split; [exact E|]. split; [exact Hlt|].
      intros e' v' [Ee|Hin] H; [|eauto]. injection Ee as <- <-. apply nth_error_In in E. pose proof (sortedZ_lt l a u Hs e v E). lia.
  - exfalso. assert (filter (fun e => (fst e <? m)%Z) l = []) as E.
    { destruct (filter (fun e => (fst e <? m)%Z) l) as [|(b, w) r] eqn:E; auto. exfalso.
      assert (In (b, w) (filter (fun e => (fst e <? m)%Z) l)) as Hin by (rewrite E; now left).
      apply filter_In in Hin. destruct Hin as (Hin & Hb). apply Z.ltb_lt in Hb. cbn in Hb. pose proof (sortedZ_lt l a u Hs b w Hin). lia. }
    rewrite E in Hl. discriminate.
Qed.
Lemma dat_sorted : sortedZ dat_changes.
Proof. vm_compute. repeat split. Qed.
Lemma dat_index_era m : (ym 1972 1 < m)%Z -> exists i, dat_index m = (i, false) /\ (14 <= i < 39)%nat /\
   exists e v, nth_error dat_changes i = Some (e, v) /\ (e < m)%Z /\ forall e' v', In (e', v') dat_changes -> (e' < m)%Z -> (e' <= e)%Z.
Proof.
  intros Hm. unfold dat_index.
  destruct (length (filter (fun e => (fst e <? m)%Z) dat_changes)) as [|n] eqn:E.
  - exfalso. apply length_zero_iff_nil in E.
    assert (In (ym 1972 1, 10) (filter (fun e => (fst e <? m)%Z) dat_changes)) as H.
    { apply filter_In. split; [unfold dat_changes; do 14 right; left; reflexivity|]. now apply Z.ltb_lt. }
    rewrite E in H. destruct H.
  - destruct (count_last _ _ _ dat_sorted E) as (e & v & En & Hlt & Hmax). exists n. split; [reflexivity|].
    split; [|eauto 10]. split.
    + destruct (Nat.le_gt_cases 14 n); auto. exfalso.
      assert (H14 : In (ym 1972 1, 10) dat_changes) by (unfold dat_changes; do 14 right; left; reflexivity).
      specialize (Hmax _ _ H14 Hm). clear -En Hmax H.
      do 14 (destruct n as [|n]; [cbn in En; injection En as <- <-; revert Hmax; vm_compute; congruence|]). lia.
    + assert (n < length dat_changes)%nat by (apply nth_error_Some; congruence). exact H.
Qed.

Lemma delta_AT_era c t jd : (ym 1972 1 < ym (yr c) (mon c))%Z -> exists v, fst (delta_AT_at c t jd false) = v /\ last_before (ym (yr c) (mon c)) v.
Proof.
  intros Hm. destruct (dat_index_era _ Hm) as (i & Ei & Hi & e & v & En & Hlt & Hmax). unfold delta_AT_at. unfold ym in Ei. rewrite Ei, En.
  assert (nth_error dat_drift i = None) as ->.
  { apply nth_error_None. cbn. lia. }
  exists v. split; [reflexivity|]. exists e. split; [now apply nth_error_In in En|]. auto.
Qed.

(** In the leap second era (after January 1972) the result is the offset of the last
    table entry of an earlier month than the UTC month. *)
Theorem C17_lookup : forall k c t, jd_to_cal GNone 1000000 k = Ok (c, t) -> (ym 1972 1 < ym (yr c) (mon c))%Z ->
  exists v w, delta_AT k false = Ok (v, w) /\ last_before (ym (yr c) (mon c)) v /\ (In WFuture w <-> (2014 < yr c)%Z) /\ ~ In WBefore1960 w.
Proof.
  intros k c t E Hm. unfold delta_AT. rewrite E. destruct (delta_AT_era c t (k # 2147483648) Hm) as (v & Ev & Hv).
  exists v, (snd (delta_AT_at c t (k # 2147483648) false)). split; [rewrite <- Ev; now rewrite <- surjective_pairing|]. split; [exact Hv|].
  destruct (dat_index_era _ Hm) as (i & Ei & _). unfold delta_AT_at. unfold ym in Ei. rewrite Ei. cbn [snd]. rewrite app_nil_r, Z.gtb_ltb.
  split.
  - destruct (Z.ltb_spec (2009 + 5) (yr c)); cbn; split; intros; auto; try lia; now destruct H0.
  - destruct (2009 + 5 <? yr c)%Z; cbn; intuition congruence.
Qed.
Print Assumptions C17_lookup.

(** months advance with time *)
Lemma ym_next leap c : valid leap c -> (ym (yr c) (mon c) <= ym (yr (next_day leap c)) (mon (next_day leap c)))%Z.
Proof.
  destruct c as [y m d]. unfold valid, next_day, ym. cbn [yr mon dy]. intros (Hm & _).
  destruct (d <? _)%Z; cbn [yr mon]; [lia|]. destruct (Z.ltb_spec m 12); cbn [yr mon]; lia.
Qed.
Lemma ym_step z : (0 <= z)%Z -> (ym (yr (jd_date GNone z)) (mon (jd_date GNone z)) <= ym (yr (jd_date GNone (z + 1))) (mon (jd_date GNone (z + 1))))%Z.
Proof.
  intros H. destruct (Z.lt_trichotomy z 2299160) as [L|[->|L]].
  - rewrite !none_lo by lia. rewrite succ_j by lia. destruct (inv_j z) as (c & -> & Hv & _); [lia|]. now apply ym_next.
  - vm_compute. congruence.
  - rewrite !none_hi by lia. rewrite succ_g by lia. destruct (inv_g z) as (c & -> & Hv & _); [lia|]. now apply ym_next.
Qed.
Lemma ym_mono z z' : (0 <= z <= z')%Z -> (ym (yr (jd_date GNone z)) (mon (jd_date GNone z)) <= ym (yr (jd_date GNone z')) (mon (jd_date GNone z')))%Z.
Proof.
  intros (H0 & H). replace z' with (z + Z.of_nat (Z.to_nat (z' - z)))%Z by lia. induction (Z.to_nat (z' - z)) as [|n IH].
  - rewrite Z.add_0_r. lia.
  - replace (z + Z.of_nat (S n))%Z with (z + Z.of_nat n + 1)%Z by lia. pose proof (ym_step (z + Z.of_nat n) ltac:(lia)). lia.
Qed.
Lemma jd_to_cal_z k c t : jd_to_cal GNone 1000000 k = Ok (c, t) -> c = jd_date GNone ((k + 2 ^ 30 + 24855) / G)%Z.
Proof. unfold jd_to_cal. cbn [Z.gtb Z.leb Z.eqb Z.compare Pos.compare Pos.compare_cont Pos.eqb]. rewrite rne_second. congruence. Qed.

Lemma last_before_mono m m' v v' : (ym 1972 1 < m <= m')%Z -> last_before m v -> last_before m' v' -> v <= v'.
Proof.
  intros Hm (e & He & Hlt & Hmax) (e' & He' & Hlt' & Hmax').
  assert (H14 : In (ym 1972 1, 10) dat_changes) by (unfold dat_changes; do 14 right; left; reflexivity).
  assert (B : (ym 1972 1 <= e)%Z) by (apply (Hmax _ _ H14); lia).
  assert (B' : (e <= e')%Z) by (apply (Hmax' _ _ He); lia).
  assert (H : forall p p', In p dat_changes -> In p' dat_changes -> (ym 1972 1 <= fst p)%Z -> (fst p <= fst p')%Z -> snd p <= snd p').
  { assert (forallb (fun p => forallb (fun p' => implb ((ym 1972 1 <=? fst p) && (fst p <=? fst p'))%Z (Qle_bool (snd p) (snd p'))) dat_changes) dat_changes = true) as F by (vm_compute; reflexivity).
    intros p p' Hp Hp' L1 L2. rewrite forallb_forall in F. specialize (F p Hp). cbv beta in F. rewrite forallb_forall in F. specialize (F p' Hp').
    apply Z.leb_le in L1, L2. rewrite L1, L2 in F. cbn in F. now apply Qle_bool_iff. }
  exact (H _ _ He He' B B').
Qed.

(** TAI-UTC never decreases in the leap second era. *)
Theorem C17_nondecreasing : forall k k' c t v v' w w', (0 <= k <= k')%Z -> jd_to_cal GNone 1000000 k = Ok (c, t) -> (ym 1972 1 < ym (yr c) (mon c))%Z ->
  delta_AT k false = Ok (v, w) -> delta_AT k' false = Ok (v', w') -> v <= v'.
Proof.
  intros k k' c t v v' w w' Hk E Hm Ev Ev'.
  destruct (jd_to_cal GNone 1000000 k') as [(c', t')| |] eqn:E'; [|unfold delta_AT in Ev'; rewrite E' in Ev'; discriminate..].
  assert (M : (ym (yr c) (mon c) <= ym (yr c') (mon c'))%Z).
  { rewrite (jd_to_cal_z _ _ _ E), (jd_to_cal_z _ _ _ E'). apply ym_mono. rewrite G_val. split.
    - apply Z.div_pos; lia.
    - apply Z.div_le_mono; lia. }
  destruct (C17_lookup k c t E Hm) as (u & wu & Eu & Lu & _). destruct (C17_lookup k' c' t' E') as (u' & wu' & Eu' & Lu' & _); [lia|].
  assert (v = u) as -> by congruence. assert (v' = u') as -> by congruence.
  eapply last_before_mono; [|exact Lu|exact Lu']. lia.
Qed.
Print Assumptions C17_nondecreasing.

(** noon of a date, as a Julian Date in units of 2^-31 *)
Definition noon (y m d : Z) : Z := (cal_day GTrue (Date y m d) * G)%Z.
Example C17_ex : delta_AT (noon 2009 2 1) false = Ok (34, []) /\ delta_AT (noon 1980 6 15) false = Ok (19, []) /\
  delta_AT (noon 2020 1 1) false = Ok (34, [WFuture]) /\ last_before (ym 2009 2) 34.
Proof. split; [|split; [|split]]; [vm_compute; reflexivity..|].
  exists (ym 2009 1). split; [unfold dat_changes; do 38 right; left; reflexivity|]. split; [reflexivity|].
  intros e' v' _. unfold ym. lia.
Qed.
(** A leap second takes effect at the beginning of its month (SOFA dat.c, which the code cites):
    in January 2009 the code still returns 33. *)
Theorem C17_month_of_change_refuted : In (ym 2009 1, 34) dat_changes /\ delta_AT (noon 2009 1 15) false = Ok (33, []).
Proof. split; [unfold dat_changes; do 38 right; left; reflexivity|vm_compute; reflexivity]. Qed.
(** Documented: usett gives TT - UTC, with TT - TAI = 32.184 s.  The sign is wrong. *)
Theorem C17_usett_refuted : exists v v' w, delta_AT (noon 2000 1 1) false = Ok (v, w) /\ delta_AT (noon 2000 1 1) true = Ok (v', w) /\
  v' == v - (32184 # 1000) /\ ~ v' == v + (32184 # 1000).
Proof.
  exists 32, (-(184 # 1000)), []. split; [vm_compute; reflexivity|]. split; [vm_compute; reflexivity|]. split; [reflexivity|]. intros H. discriminate.
Qed.
(** Before 1972 the drift is evaluated at the date plus twice the fraction of the day. *)
Theorem C17_drift_refuted : exists v w, delta_AT (noon 1967 1 1) false = Ok (v, w) /\
  v == (43131700#10000000) + (inject_Z (cal_day GTrue (Date 1967 1 1)) - mjdoffset + (1 # 2) - 39126) * (25920#10000000).
Proof. eexists; eexists. split; [vm_compute; reflexivity|]. vm_compute. reflexivity. Qed.
