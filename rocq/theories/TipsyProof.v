(** * TipsyProof: reading a Tipsy file (C99) *)
From Coq Require Import List Bool Arith Lia.
From Verif Require Import PyBase TipsyModel.
Import ListNotations.

(** ** Specification: a snapshot and its file (the Tipsy ASCII format: gas first, then dark matter, then stars) *)
Section Spec.
Context {A : Type}.
Record gas := Gas { g_mass : A; g_pos : nat -> A; g_vel : nat -> A; g_density : A; g_temp : A; g_smooth : A; g_metals : A; g_pot : A }.
Record dark := Dark { d_mass : A; d_pos : nat -> A; d_vel : nat -> A; d_soft : A; d_pot : A }.
Record star := Star { s_mass : A; s_pos : nat -> A; s_vel : nat -> A; s_soft : A; s_metals : A; s_form : A; s_pot : A }.
Record snapshot := Snap { gases : list gas; darks : list dark; stars : list star }.
Definition everything (f : gas -> A) (g : dark -> A) (h : star -> A) (s : snapshot) : list A := map f (gases s) ++ map g (darks s) ++ map h (stars s).
Definition particles (s : snapshot) : nat := length (gases s) + length (darks s) + length (stars s).
Definition file (dims : nat) (s : snapshot) : list A :=
  everything g_mass d_mass s_mass s ++
  concat (map (fun k => everything (fun p => g_pos p k) (fun p => d_pos p k) (fun p => s_pos p k) s) (seq 0 dims)) ++
  concat (map (fun k => everything (fun p => g_vel p k) (fun p => d_vel p k) (fun p => s_vel p k) s) (seq 0 dims)) ++
  map d_soft (darks s) ++ map s_soft (stars s) ++
  map g_density (gases s) ++ map g_temp (gases s) ++ map g_smooth (gases s) ++ map g_metals (gases s) ++
  map s_metals (stars s) ++ map s_form (stars s) ++
  everything g_pot d_pot s_pot s.
(** entries that are left out when there are no such particles *)
Definition present (l : list A) : option (list A) := match l with [] => None | _ => Some l end.

(** ** Slices *)
Lemma slice_mid (a b c : list A) n j : n = length b -> j = length a -> slice j (j + n) (a ++ b ++ c) = b.
Proof. intros -> ->. unfold slice. replace (length a + length b - length a) with (length b) by lia. rewrite skipn_app, skipn_all, Nat.sub_diag. cbn [skipn app]. now rewrite firstn_app, firstn_all, Nat.sub_diag, firstn_O, app_nil_r. Qed.
Lemma next_mid (a b c : list A) n j : n = length b -> j = length a -> next j n (a ++ b ++ c) = (b, length (a ++ b)).
Proof. intros H1 H2. unfold next. rewrite slice_mid by assumption. f_equal. rewrite app_length. lia. Qed.
Lemma everything_length f g h s : length (everything f g h s) = particles s.
Proof. unfold everything, particles. rewrite !app_length, !map_length. lia. Qed.
Lemma blocks_mid n (F : nat -> list A) : (forall k, length (F k) = n) -> forall d k a c, blocks d (length a) n (a ++ concat (map F (seq k d)) ++ c) = map F (seq k d).
Proof.
  intros HF. induction d as [|d IH]; intros k a c; [reflexivity|]. cbn [seq map concat blocks]. rewrite <- app_assoc. rewrite slice_mid by (rewrite ?HF; reflexivity). f_equal.
  replace (length a + n) with (length (a ++ F k)) by (rewrite app_length, HF; reflexivity). rewrite (app_assoc a). apply IH.
Qed.
Lemma concat_length n (F : nat -> list A) : (forall k, length (F k) = n) -> forall d k, length (concat (map F (seq k d))) = d * n.
Proof. intros HF. induction d as [|d IH]; intros k; [reflexivity|]. cbn [seq map concat]. rewrite app_length, HF, IH. lia. Qed.
Lemma rect_seq n (F : nat -> list A) : (forall k, length (F k) = n) -> forall d, 0 < d -> rectangular (map F (seq 0 d)) = true.
Proof.
  intros HF [|d] H; [lia|]. cbn [seq map rectangular]. apply forallb_forall. intros q Q. apply in_map_iff in Q. destruct Q as (k & <- & _). rewrite !HF. apply Nat.eqb_refl.
Qed.
Lemma gas_part f g h s : firstn (length (gases s)) (everything f g h s) = map f (gases s).
Proof. unfold everything. rewrite <- (map_length f (gases s)). now rewrite firstn_app, firstn_all, Nat.sub_diag, firstn_O, app_nil_r. Qed.
Lemma star_part f g h s : skipn (length (gases s) + length (darks s)) (everything f g h s) = map h (stars s).
Proof. unfold everything. rewrite app_assoc. rewrite <- (map_length f (gases s)), <- (map_length g (darks s)), <- app_length. rewrite skipn_app, skipn_all, Nat.sub_diag. reflexivity. Qed.
Lemma dark_part f g h s : gases s = [] -> slice (length (gases s)) (length (darks s)) (everything f g h s) = map g (darks s).
Proof. intros E. unfold everything, slice. rewrite E. cbn [length map app skipn]. rewrite Nat.sub_0_r, <- (map_length g (darks s)). now rewrite firstn_app, firstn_all, Nat.sub_diag, firstn_O, app_nil_r. Qed.

(** ** C99 *)
(** the whole entry, the gas part and the star part are right; the dark part if there is no gas *)
Definition right (p : parts) (f : gas -> A) (g : dark -> A) (h : star -> A) (s : snapshot) : Prop :=
  whole p = everything f g h s /\ of_gas p = map f (gases s) /\ of_star p = map h (stars s) /\ (gases s = [] -> of_dark p = map g (darks s)).
Definition vright (p : vparts) (f : gas -> nat -> A) (g : dark -> nat -> A) (h : star -> nat -> A) (dims : nat) (s : snapshot) : Prop :=
  vwhole p = map (fun k => everything (fun x => f x k) (fun x => g x k) (fun x => h x k) s) (seq 0 dims) /\
  vof_gas p = map (fun k => map (fun x => f x k) (gases s)) (seq 0 dims) /\ vof_star p = map (fun k => map (fun x => h x k) (stars s)) (seq 0 dims) /\
  (gases s = [] -> vof_dark p = map (fun k => map (fun x => g x k) (darks s)) (seq 0 dims)).
Lemma parts_right f g h s : right (split_parts (length (gases s)) (length (darks s)) (everything f g h s)) f g h s.
Proof. unfold right, split_parts. cbn [whole of_gas of_dark of_star]. repeat split; [apply gas_part|apply star_part|apply dark_part]. Qed.
Lemma vparts_right f g h dims s : 0 < dims -> exists v, split_vectors (length (gases s)) (length (darks s)) (map (fun k => everything (fun x => f x k) (fun x => g x k) (fun x => h x k) s) (seq 0 dims)) = Ok v /\ vright v f g h dims s.
Proof.
  intros D. unfold split_vectors. rewrite (rect_seq (particles s) (fun k => everything (fun x => f x k) (fun x => g x k) (fun x => h x k) s)) by (auto using everything_length).
  eexists. split; [reflexivity|]. unfold vright. cbn [vwhole vof_gas vof_dark vof_star]. rewrite !map_map. split; [reflexivity|]. split; [apply map_ext; intros k; apply gas_part|]. split; [apply map_ext; intros k; apply star_part|].
  intros E. apply map_ext. intros k. now apply dark_part.
Qed.
Lemma next_at (l pre b post : list A) n j : l = pre ++ b ++ post -> n = length b -> j = length pre -> next j n l = (b, j + n).
Proof. intros -> E1 E2. unfold next. now rewrite slice_mid. Qed.
Lemma some_next (l pre b post : list A) n j : l = pre ++ b ++ post -> n = length b -> j = length pre -> (if 0 <? n then let '(x, j') := next j n l in (Some x, j') else (None, j)) = (present b, j + n).
Proof. intros E1 E2 E3. rewrite (next_at l pre b post) by assumption. destruct b as [|x b]; cbn [length] in E2; subst n; cbn [Nat.ltb Nat.leb present]; [now rewrite Nat.add_0_r|reflexivity]. Qed.
Ltac lens := rewrite ?app_length, ?map_length, ?everything_length; try lia.
Theorem C99_read : forall dims s extra, 0 < dims -> 0 < particles s -> exists t, load (particles s) (length (gases s)) (length (stars s)) dims (file dims s ++ extra) = Ok t /\
  n_total t = particles s /\ n_gas t = length (gases s) /\ n_dark t = length (darks s) /\ n_star t = length (stars s) /\ t_dims t = dims /\
  right (mass t) g_mass d_mass s_mass s /\ vright (pos t) g_pos d_pos s_pos dims s /\ vright (vel t) g_vel d_vel s_vel dims s /\ right (potential_en t) g_pot d_pot s_pot s /\
  softening_dark t = present (map d_soft (darks s)) /\ softening_star t = present (map s_soft (stars s)) /\
  density t = present (map g_density (gases s)) /\ temperature t = present (map g_temp (gases s)) /\ sph_smoothing t = present (map g_smooth (gases s)) /\ metals_gas t = present (map g_metals (gases s)) /\
  metals_star t = present (map s_metals (stars s)) /\ formation_time t = present (map s_form (stars s)) /\ (warned t = false <-> extra = []).
Proof.
  intros dims s extra D N. set (n := particles s) in *.
  set (M := everything g_mass d_mass s_mass s). set (FP := fun k => everything (fun p => g_pos p k) (fun p => d_pos p k) (fun p => s_pos p k) s). set (FV := fun k => everything (fun p => g_vel p k) (fun p => d_vel p k) (fun p => s_vel p k) s).
  set (P := concat (map FP (seq 0 dims))). set (V := concat (map FV (seq 0 dims))).
  assert (HP : forall k, length (FP k) = n) by (intros; apply everything_length). assert (HV : forall k, length (FV k) = n) by (intros; apply everything_length).
  assert (LM : length M = n) by apply everything_length. assert (LP : length P = dims * n) by now apply concat_length. assert (LV : length V = dims * n) by now apply concat_length.
  assert (EF : file dims s = M ++ P ++ V ++ map d_soft (darks s) ++ map s_soft (stars s) ++ map g_density (gases s) ++ map g_temp (gases s) ++ map g_smooth (gases s) ++ map g_metals (gases s) ++ map s_metals (stars s) ++ map s_form (stars s) ++ everything g_pot d_pot s_pot s) by reflexivity.
  set (l := file dims s ++ extra).
  assert (LL : length l = n + dims * n + dims * n + length (darks s) + length (stars s) + 4 * length (gases s) + 2 * length (stars s) + n + length extra). { unfold l. rewrite EF. rewrite !app_length, !map_length, everything_length. fold n. lia. }
  assert (SM : slice 0 n l = M). { unfold l. rewrite EF. rewrite <- !app_assoc. match goal with |- slice 0 n (M ++ ?r) = _ => exact (slice_mid [] M r n 0 (eq_sym LM) eq_refl) end. }
  assert (SP : blocks dims n n l = map FP (seq 0 dims)). { unfold l. rewrite EF. rewrite <- !app_assoc. rewrite <- LM at 1. now apply blocks_mid. }
  assert (SV : blocks dims (n + dims * n) n l = map FV (seq 0 dims)). { unfold l. rewrite EF. rewrite <- !app_assoc. rewrite app_assoc. replace (n + dims * n) with (length (M ++ P)) by (rewrite app_length; lia). now apply blocks_mid. }
  assert (DK : n - length (stars s) - length (gases s) = length (darks s)) by (unfold n, particles; lia).
  destruct (vparts_right g_pos d_pos s_pos dims s D) as (p & Hp & Rp). destruct (vparts_right g_vel d_vel s_vel dims s D) as (v & Hv & Rv). fold FP in Hp. fold FV in Hv.
  unfold load. rewrite DK, SM, SP, SV.
  rewrite Hp, Hv.
  set (H1 := M ++ P ++ V).
  rewrite (some_next l H1 (map d_soft (darks s)) (map s_soft (stars s) ++ map g_density (gases s) ++ map g_temp (gases s) ++ map g_smooth (gases s) ++ map g_metals (gases s) ++ map s_metals (stars s) ++ map s_form (stars s) ++ everything g_pot d_pot s_pot s ++ extra));
    [|unfold l, H1; rewrite EF, <- !app_assoc; reflexivity|now rewrite map_length|unfold H1; rewrite !app_length; lia].
  set (H2 := H1 ++ map d_soft (darks s)).
  rewrite (some_next l H2 (map s_soft (stars s)) (map g_density (gases s) ++ map g_temp (gases s) ++ map g_smooth (gases s) ++ map g_metals (gases s) ++ map s_metals (stars s) ++ map s_form (stars s) ++ everything g_pot d_pot s_pot s ++ extra));
    [|unfold l, H2, H1; rewrite EF, <- !app_assoc; reflexivity|now rewrite map_length|unfold H2, H1; rewrite !app_length, map_length; lia].
  set (j2 := n + dims * n + dims * n + length (darks s) + length (stars s)).
  set (H3 := H2 ++ map s_soft (stars s)). assert (J2 : j2 = length H3) by (unfold j2, H3, H2, H1; rewrite !app_length, !map_length; lia).
  rewrite (next_at l H3 (map g_density (gases s)) (map g_temp (gases s) ++ map g_smooth (gases s) ++ map g_metals (gases s) ++ map s_metals (stars s) ++ map s_form (stars s) ++ everything g_pot d_pot s_pot s ++ extra));
    [|unfold l, H3, H2, H1; rewrite EF, <- !app_assoc; reflexivity|now rewrite map_length|exact J2].
  set (H4 := H3 ++ map g_density (gases s)).
  rewrite (next_at l H4 (map g_temp (gases s)) (map g_smooth (gases s) ++ map g_metals (gases s) ++ map s_metals (stars s) ++ map s_form (stars s) ++ everything g_pot d_pot s_pot s ++ extra));
    [|unfold l, H4, H3, H2, H1; rewrite EF, <- !app_assoc; reflexivity|now rewrite map_length|unfold H4; rewrite app_length, map_length; lia].
  set (H5 := H4 ++ map g_temp (gases s)).
  rewrite (next_at l H5 (map g_smooth (gases s)) (map g_metals (gases s) ++ map s_metals (stars s) ++ map s_form (stars s) ++ everything g_pot d_pot s_pot s ++ extra));
    [|unfold l, H5, H4, H3, H2, H1; rewrite EF, <- !app_assoc; reflexivity|now rewrite map_length|unfold H5, H4; rewrite !app_length, !map_length; lia].
  set (H6 := H5 ++ map g_smooth (gases s)).
  rewrite (next_at l H6 (map g_metals (gases s)) (map s_metals (stars s) ++ map s_form (stars s) ++ everything g_pot d_pot s_pot s ++ extra));
    [|unfold l, H6, H5, H4, H3, H2, H1; rewrite EF, <- !app_assoc; reflexivity|now rewrite map_length|unfold H6, H5, H4; rewrite !app_length, !map_length; lia].
  set (H7 := H6 ++ map g_metals (gases s)). set (ng := length (gases s)) in *. set (ns := length (stars s)) in *.
  assert (G : (if 0 <? ng then (Some (map g_density (gases s)), Some (map g_temp (gases s)), Some (map g_smooth (gases s)), Some (map g_metals (gases s)), j2 + ng + ng + ng + ng) else (None, None, None, None, j2)) =
              (present (map g_density (gases s)), present (map g_temp (gases s)), present (map g_smooth (gases s)), present (map g_metals (gases s)), j2 + ng + ng + ng + ng)).
  { unfold ng. destruct (gases s); cbn [length map present Nat.ltb Nat.leb]; [now rewrite !Nat.add_0_r|reflexivity]. }
  rewrite G. assert (J7 : j2 + ng + ng + ng + ng = length H7) by (unfold H7, H6, H5, H4; rewrite !app_length, !map_length; fold ng; lia). rewrite J7.
  rewrite (next_at l H7 (map s_metals (stars s)) (map s_form (stars s) ++ everything g_pot d_pot s_pot s ++ extra));
    [|unfold l, H7, H6, H5, H4, H3, H2, H1; rewrite EF, <- !app_assoc; reflexivity|now rewrite map_length|reflexivity].
  set (H8 := H7 ++ map s_metals (stars s)).
  rewrite (next_at l H8 (map s_form (stars s)) (everything g_pot d_pot s_pot s ++ extra));
    [|unfold l, H8, H7, H6, H5, H4, H3, H2, H1; rewrite EF, <- !app_assoc; reflexivity|now rewrite map_length|unfold H8; rewrite app_length, map_length; fold ns; lia].
  assert (G2 : (if 0 <? ns then (Some (map s_metals (stars s)), Some (map s_form (stars s)), length H7 + ns + ns) else (None, None, length H7)) = (present (map s_metals (stars s)), present (map s_form (stars s)), length H7 + ns + ns)).
  { unfold ns. destruct (stars s); cbn [length map present Nat.ltb Nat.leb]; [now rewrite !Nat.add_0_r|reflexivity]. }
  rewrite G2. set (H9 := H8 ++ map s_form (stars s)).
  rewrite (next_at l H9 (everything g_pot d_pot s_pot s) extra); [|unfold l, H9, H8, H7, H6, H5, H4, H3, H2, H1; rewrite EF, <- !app_assoc; reflexivity|now rewrite everything_length|unfold H9, H8; rewrite !app_length, !map_length; fold ns; lia].
  assert (Z : forall X : @tipsy A, match l with [_] => Raise IndexError | _ => Ok X end = Ok X). { intros X. destruct l as [|x [|y l']]; try reflexivity. exfalso. cbn [length] in LL. nia. }
  rewrite Z. eexists. split; [reflexivity|]. cbn [n_total n_gas n_dark n_star t_dims mass pos vel potential_en softening_dark softening_star density temperature sph_smoothing metals_gas metals_star formation_time warned].
  repeat (split; [first [reflexivity|apply parts_right|exact Rp|exact Rv]|]).
  rewrite negb_false_iff, Nat.eqb_eq. rewrite <- J7. unfold j2. rewrite LL. fold ng ns. split; [intros H; destruct extra; [reflexivity|cbn [length] in H; lia]|intros ->; cbn [length]; lia].
Qed.
(** a mixture of gas and dark matter: the dark part is never complete *)
Theorem C99_dark_refuted : forall dims s extra t, 0 < dims -> gases s <> [] -> darks s <> [] -> load (particles s) (length (gases s)) (length (stars s)) dims (file dims s ++ extra) = Ok t ->
  length (of_dark (mass t)) < length (darks s) /\ of_dark (mass t) <> map d_mass (darks s).
Proof.
  intros dims s extra t D G K H. assert (N : 0 < particles s) by (unfold particles; destruct (gases s); [congruence|cbn [length]; lia]).
  assert (E : of_dark (mass t) = slice (length (gases s)) (length (darks s)) (whole (mass t))).
  { unfold load in H. replace (particles s - length (stars s) - length (gases s)) with (length (darks s)) in H by (unfold particles; lia). remember (file dims s ++ extra) as l eqn:El. clear El.
    destruct l as [|x [|y l]]; [|discriminate|].
    all: match type of H with match ?a with _ => _ end = _ => destruct a as [p| |]; try discriminate end.
    all: match type of H with match ?a with _ => _ end = _ => destruct a as [v| |]; try discriminate end.
    all: repeat match type of H with (let '(_, _) := ?x in _) = _ => destruct x end; injection H as <-; reflexivity. }
  assert (Q : length (of_dark (mass t)) < length (darks s)). { rewrite E. unfold slice. pose proof (firstn_le_length (length (darks s) - length (gases s)) (skipn (length (gases s)) (whole (mass t)))). destruct (gases s), (darks s); try congruence. cbn [length] in *. lia. }
  split; [exact Q|]. intros Z. rewrite Z, map_length in Q. lia.
Qed.
(** no dimensions: IndexError *)
Theorem C99_no_dimensions : forall ntotal ngas nstar (l : list A), load ntotal ngas nstar 0 l = Raise IndexError.
Proof. intros ntotal ngas nstar [|x [|y l]]; reflexivity. Qed.
End Spec.
(** any number of values: the warning tells whether the number is the one the header asks for *)
Theorem C99_warning : forall (A : Type) ntotal ngas nstar dims (l : list A) t, ngas + nstar <= ntotal -> load ntotal ngas nstar dims l = Ok t ->
  (warned t = true <-> length l <> ntotal * (2 + 2 * dims) + (ntotal - nstar - ngas) + 3 * nstar + 4 * ngas).
Proof.
  intros A ntotal ngas nstar dims l t HN H. unfold load in H.
  assert (X : match split_vectors ngas (ntotal - nstar - ngas) (blocks dims ntotal ntotal l) with Ok p => match split_vectors ngas (ntotal - nstar - ngas) (blocks dims (ntotal + dims * ntotal) ntotal l) with Ok v =>
     warned t = negb (Nat.eqb (ntotal + dims * ntotal + dims * ntotal + (ntotal - nstar - ngas) + nstar + ngas + ngas + ngas + ngas + nstar + nstar + ntotal) (length l)) | _ => False end | _ => False end).
  { assert (H' : load ntotal ngas nstar dims l = Ok t) by exact H. clear H'. destruct l as [|x [|y l]]; [|discriminate|]; match goal with |- context [length ?q] => remember q as l0 end.
    all: destruct (split_vectors ngas (ntotal - nstar - ngas) (blocks dims ntotal ntotal l0)) as [p| |]; try discriminate.
    all: destruct (split_vectors ngas (ntotal - nstar - ngas) (blocks dims (ntotal + dims * ntotal) ntotal l0)) as [v| |]; try discriminate.
    all: unfold next in H; set (nd := ntotal - nstar - ngas) in *.
    all: destruct nd as [|nd'] eqn:Ed, nstar as [|ns], ngas as [|ng]; cbn [Nat.ltb Nat.leb] in H; injection H as <-; cbn [warned]; do 2 f_equal; lia. }
  destruct (split_vectors _ _ (blocks dims ntotal ntotal l)) as [p| |]; try contradiction. destruct (split_vectors _ _ (blocks dims (ntotal + dims * ntotal) ntotal l)) as [v| |]; try contradiction.
  rewrite X, negb_true_iff, Nat.eqb_neq. nia.
Qed.
(** two particles of each kind in two dimensions *)
Definition C99_snap : @snapshot nat := Snap [Gas 1 (fun k => k) (fun k => 10 + k) 2 3 4 5 6; Gas 11 (fun k => k) (fun k => 10 + k) 12 13 14 15 16] [Dark 21 (fun k => k) (fun k => k) 22 23] [Star 31 (fun k => k) (fun k => k) 32 33 34 35].
Example C99_ex : exists t, load 4 2 1 2 (file 2 C99_snap) = Ok t /\ whole (mass t) = [1; 11; 21; 31] /\ of_dark (mass t) = [] /\ of_star (mass t) = [31] /\ metals_star t = Some [33] /\ warned t = false.
Proof. eexists. split; [reflexivity|]. repeat split. Qed.
