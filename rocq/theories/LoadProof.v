(** * LoadProof: spectra read from files (C109-C111) *)
From Coq Require Import List Bool Reals Lra Lia ZArith String Permutation Sorted Arith.
From Verif Require Import PyBase SpecModel SpecObj SmModel SmProof LoadModel.
Import ListNotations.
Open Scope R_scope.

(** ** rows in the order of x *)
Notation row := (R * (R * R))%type.
Definition in_order (rows l : list row) : Prop := Permutation rows l /\ StronglySorted (fun a b => fst a <= fst b) rows.
Lemma sort_in_order l : in_order (sort_x l) l.
Proof. unfold in_order, sort_x. induction l as [|a l (P & S)]; cbn [fold_right]; [split; constructor|]. split; [rewrite ins_perm; now constructor|now apply ins_sorted]. Qed.
Lemma in_order_strict rows : forall l, in_order rows l -> StronglySorted (fun a b => fst a < fst b) l -> rows = l.
Proof.
  induction rows as [|a r I]; intros [|b l] (P & S) T; trivial.
  - now apply Permutation_nil_cons in P.
  - symmetry in P. now apply Permutation_nil_cons in P.
  - inversion S as [|? ? S' F]; subst. inversion T as [|? ? T' G]; subst. rewrite List.Forall_forall in F, G.
    assert (a = b) as ->.
    { destruct (Permutation_in a P (or_introl eq_refl)) as [->|A]; trivial. specialize (G a A). destruct (Permutation_in b (Permutation_sym P) (or_introl eq_refl)) as [->|B]; trivial. specialize (F b B). lra. }
    f_equal. apply I; trivial. split; trivial. now apply Permutation_cons_inv in P.
Qed.

(** ** construction (C109) *)
(** the error that the number given for a pixel stands for *)
Definition error_by (kind : string) (v e : R) : Prop :=
  if String.eqb kind "err" then e = Rabs v
  else if String.eqb kind "ierr" then v <> 0 -> e * Rabs v = 1
  else if String.eqb kind "var" then 0 < v -> 0 < e /\ e * e = v
  else if String.eqb kind "ivar" then 0 < v -> 0 < e /\ e * e * v = 1
  else False.
Definition whole (a : arr) : Prop := List.length (vals a) = fold_right Nat.mul 1%nat (shape a).
Lemma shape_eqb_spec a b : reflect (a = b) (shape_eqb a b).
Proof. unfold shape_eqb. destruct (list_eq_dec Nat.eq_dec a b); now constructor. Qed.
Definition err_given (e : errarg) (flux : arr) (es : list R) : Prop :=
  match e with
  | NoErr => es = map (fun _ => 0) (vals flux)
  | ByErr a => shape a = shape flux /\ Forall2 (error_by "err") (vals a) es
  | ByIvar a => shape a = shape flux /\ Forall2 (error_by "ivar") (vals a) es
  end.
Lemma forall2_map {A B} (P : A -> B -> Prop) f l : (forall a, P a (f a)) -> Forall2 P l (map f l).
Proof. intros H. induction l; constructor; auto. Qed.
Lemma abs_err v : (if Rlt_dec v 0 then -1 * v else v) = Rabs v.
Proof. destruct (Rlt_dec v 0); [rewrite Rabs_left; lra|rewrite Rabs_right; lra]. Qed.
Lemma ivar_err v : error_by "ivar" v (/ sqrt v).
Proof.
  unfold error_by. cbn [String.eqb]. intros P.
  assert (S : 0 < sqrt v) by now apply sqrt_lt_R0. split; [now apply Rinv_0_lt_compat|]. rewrite <- (sqrt_sqrt v) at 3 by lra. field. lra.
Qed.
(** construction succeeds exactly if the shapes agree; the rows are those given, in the order of x, with the errors that were given *)
Theorem construct_result x flux e : whole x -> whole flux -> match e with NoErr => True | ByErr a | ByIvar a => whole a end ->
  match construct x flux e with
  | Ok rows => shape x = shape flux /\ exists es, err_given e flux es /\ List.length es = List.length (vals flux) /\ in_order rows (combine (vals x) (combine (vals flux) es))
  | Raise y => y = ValueError /\ (shape x <> shape flux \/ match e with NoErr => False | ByErr a | ByIvar a => shape a <> shape flux end)
  | OutOfFuel => False
  end.
Proof.
  intros Wx Wf We. unfold construct. destruct (shape_eqb_spec (shape x) (shape flux)) as [Ex|Nx]; cbn [negb]; [|auto]. destruct e as [|a|a].
  - split; trivial. exists (map (fun _ => 0) (vals flux)). repeat split; [apply map_length|apply sort_in_order|apply sort_in_order].
  - destruct (shape_eqb_spec (shape a) (shape flux)) as [Ea|Na]; cbn [negb]; [|auto]. split; trivial. eexists. split; [split; trivial|].
    + apply forall2_map. intros v. unfold error_by. cbn [String.eqb]. apply abs_err.
    + split; [|apply sort_in_order]. rewrite map_length. unfold whole in *. congruence.
  - destruct (shape_eqb_spec (shape a) (shape flux)) as [Ea|Na]; cbn [negb]; [|auto]. split; trivial. eexists. split; [split; trivial|].
    + apply forall2_map. intros v. apply ivar_err.
    + split; [|apply sort_in_order]. rewrite map_length. unfold whole in *. congruence.
Qed.

(** ** load_wcs_spectrum (C110) *)
(** a header that gives a scale for the x-axis *)
Definition scaled (h : hdu) : Prop := crval1 h <> None /\ (cd1_1 h <> None \/ cdelt1 h <> None).
(** the HDUs that the flux and the header are taken from *)
Inductive chosen (f : list hdu) : option Z -> option Z -> hdu -> hdu -> Prop :=
| by_scale before h after hd : List.Forall (fun h => ~ scaled h) before -> scaled h -> f = before ++ h :: after -> chosen f None hd h h
| by_number i h : py_get f i = Some h -> chosen f (Some i) None h h
| by_numbers i j h k : py_get f i = Some h -> py_get f j = Some k -> chosen f (Some i) (Some j) h k.
(** CD1_1, or CDELT1 without it *)
Definition step_of (h : hdu) (d : R) : Prop := cd1_1 h = Some d \/ (cd1_1 h = None /\ cdelt1 h = Some d).
(** a row of numbers, or one row of a table of one *)
Definition row_of (h : hdu) (fl : list R) : Prop := data h = Some (Arr [List.length fl] fl) \/ data h = Some (Arr [1%nat; List.length fl] fl).
Inductive errors_of (f : list hdu) : option Z -> string -> list R -> list R -> Prop :=
| e_none kind fl : kind = "err"%string \/ kind = "ivar"%string -> errors_of f None kind fl (repeat 0 (List.length fl))
| e_empty k h kind fl : py_get f k = Some h -> data h = None -> kind = "err"%string \/ kind = "ivar"%string -> errors_of f (Some k) kind fl (repeat 0 (List.length fl))
| e_given k h vs kind fl es : py_get f k = Some h -> data h = Some (Arr [List.length fl] vs) -> List.length vs = List.length fl -> In kind ["err"; "ierr"; "var"; "ivar"]%string -> Forall2 (error_by kind) vs es -> errors_of f (Some k) kind fl es.
Definition pixels (c d : R) (fl es : list R) : list row := map (fun i => (c + INR i * d, (nth i fl 0, nth i es 0))) (seq 0 (List.length fl)).
Definition loadable (f : list hdu) (fe ee he : option Z) (kind : string) (c d : R) (fl es : list R) : Prop :=
  exists hf hh, chosen f fe he hf hh /\ (ctype1 hh = None \/ ctype1 hh = Some "LINEAR"%string) /\ crval1 hh = Some c /\ step_of hh d /\ row_of hf fl /\ errors_of f ee kind fl es.
Definition sound_file (f : list hdu) : Prop := forall h a, In h f -> data h = Some a -> whole a.

Lemma has_scaled h : has (crval1 h) && (has (cd1_1 h) || has (cdelt1 h)) = true <-> scaled h.
Proof.
  unfold scaled. destruct (crval1 h), (cd1_1 h), (cdelt1 h); cbn [has andb orb]; split; try discriminate; intros H; try reflexivity;
    try (split; [discriminate|]; first [left; discriminate|right; discriminate]); exfalso; destruct H as (A & [B|B]); congruence.
Qed.
Lemma locate_spec f : forall i, match locate i f with
  | Some k => exists before h after, f = before ++ h :: after /\ k = (i + List.length before)%nat /\ scaled h /\ List.Forall (fun h => ~ scaled h) before
  | None => List.Forall (fun h => ~ scaled h) f end.
Proof.
  induction f as [|h f I]; intros i; cbn [locate]; [constructor|]. destruct (has (crval1 h) && (has (cd1_1 h) || has (cdelt1 h))) eqn:E.
  - apply has_scaled in E. exists [], h, f. split; [reflexivity|]. split; [cbn; lia|]. split; [exact E|constructor].
  - assert (N : ~ scaled h). { rewrite <- has_scaled. congruence. }
    specialize (I (S i)). destruct (locate (S i) f) as [k|].
    + destruct I as (b & h' & a & -> & -> & Sc & F). exists (h :: b), h', a. repeat split; try apply Sc; trivial; [cbn; lia|now constructor].
    + now constructor.
Qed.
Lemma get_at {A} (l r : list A) x : py_get (l ++ x :: r) (Z.of_nat (List.length l)) = Some x.
Proof.
  unfold py_get, py_index. rewrite app_length. cbn [List.length]. destruct (Z.leb_spec 0 (Z.of_nat (List.length l))); [|lia]. destruct (Z.ltb_spec (Z.of_nat (List.length l)) (Z.of_nat (List.length l + S (List.length r)))); [|lia].
  rewrite Nat2Z.id, nth_error_app2 by lia. now rewrite Nat.sub_diag.
Qed.
Lemma get_in {A} (l : list A) i x : py_get l i = Some x -> In x l.
Proof. unfold py_get. destruct (py_index _ i); [|discriminate]. apply nth_error_In. Qed.
Lemma combine_map_seq {A B} (da : A) (db : B) l : forall m, List.length m = List.length l -> combine l m = map (fun i => (nth i l da, nth i m db)) (seq 0 (List.length l)).
Proof.
  induction l as [|a l I]; intros [|b m] E; try discriminate; trivial. cbn [combine List.length seq map nth]. f_equal. rewrite <- seq_shift, map_map. apply I. now injection E.
Qed.
Lemma pixels_combine c d fl es : List.length es = List.length fl -> combine (map (fun i => INR i * d + c) (seq 0 (List.length fl))) (combine fl es) = pixels c d fl es.
Proof.
  intros E. rewrite (combine_map_seq 0 (0, 0)) by (rewrite map_length, seq_length, combine_length; lia). rewrite map_length, seq_length. unfold pixels. apply map_ext_in. intros i I. apply in_seq in I.
  rewrite (nth_indep _ 0 (INR 0 * d + c)) by (rewrite map_length, seq_length; lia). rewrite (map_nth (fun i => INR i * d + c)), seq_nth by lia. rewrite combine_nth by lia. cbn [Nat.add]. f_equal. ring.
Qed.

Lemma whole_1 n l : whole (Arr [n] l) -> n = List.length l.
Proof. unfold whole. cbn [vals shape fold_right]. lia. Qed.
Lemma whole_line fl : whole (Arr [List.length fl] fl).
Proof. unfold whole. cbn [vals shape fold_right]. lia. Qed.
(** the end of [load_wcs]: from the flux and the errors *)
Definition finish_wcs (c d : R) (flux : arr) (err : option arr) (kind : string) : @res (list row) :=
  let flux := match shape flux with [1%nat; n] => Arr [n] (vals flux) | _ => flux end in
  let x := Arr [size flux] (map (fun i => INR i * d + c) (seq 0 (size flux))) in
  if String.eqb kind "err" then construct x flux (match err with None => NoErr | Some a => ByErr a end)
  else if String.eqb kind "ierr" then bind (recip err) (fun err => construct x flux (match err with None => NoErr | Some a => ByErr a end))
  else if String.eqb kind "var" then bind (recip err) (fun err => construct x flux (match err with None => NoErr | Some a => ByIvar a end))
  else if String.eqb kind "ivar" then construct x flux (match err with None => NoErr | Some a => ByIvar a end)
  else Raise ValueError.
(** the argument of the constructor that stands for the errors *)
Definition err_arg (kind : string) (err : option arr) : @res errarg :=
  if String.eqb kind "err" then Ok (match err with None => NoErr | Some a => ByErr a end)
  else if String.eqb kind "ierr" then match err with None => Raise TypeError | Some a => Ok (ByErr (Arr (shape a) (map (fun v => 1 / v) (vals a)))) end
  else if String.eqb kind "var" then match err with None => Raise TypeError | Some a => Ok (ByIvar (Arr (shape a) (map (fun v => 1 / v) (vals a)))) end
  else if String.eqb kind "ivar" then Ok (match err with None => NoErr | Some a => ByIvar a end)
  else Raise ValueError.
Definition squeeze (flux : arr) : arr := match shape flux with [1%nat; n] => Arr [n] (vals flux) | _ => flux end.
Lemma finish_arg c d flux err kind : finish_wcs c d flux err kind = bind (err_arg kind err) (construct (Arr [size flux] (map (fun i => INR i * d + c) (seq 0 (size flux)))) (squeeze flux)).
Proof.
  unfold finish_wcs, err_arg. fold (squeeze flux). assert (size (squeeze flux) = size flux) as ->. { unfold squeeze. destruct (shape flux) as [|[|[|n]] [|m [|? ?]]]; reflexivity. }
  destruct (String.eqb kind "err"); trivial. destruct (String.eqb kind "ierr"); [now destruct err|]. destruct (String.eqb kind "var"); [now destruct err|]. now destruct (String.eqb kind "ivar").
Qed.
Lemma squeeze_row a : whole a -> (exists fl, a = Arr [List.length fl] fl \/ a = Arr [1%nat; List.length fl] fl) <-> shape (squeeze a) = [size a].
Proof.
  intros W. unfold squeeze, size. split.
  - intros (fl & [-> | ->]); cbn [shape vals]; trivial. destruct (List.length fl) as [|[|]]; reflexivity.
  - destruct a as [sh vs]. cbn [shape vals] in *. unfold whole in W; cbn [shape vals] in W. intros E. destruct sh as [|[|[|n]] [|m [|k sh]]]; cbn [shape] in E; try discriminate.
    + exists vs. left. injection E as <-. reflexivity.
    + exists vs. left. injection E as <-. reflexivity.
    + exists vs. right. injection E as ->. reflexivity.
    + exists vs. left. injection E as <-. reflexivity.
Qed.

Lemma kinds k : (k = "err" \/ k = "ierr" \/ k = "var" \/ k = "ivar" \/ (String.eqb k "err" = false /\ String.eqb k "ierr" = false /\ String.eqb k "var" = false /\ String.eqb k "ivar" = false))%string.
Proof. destruct (String.eqb_spec k "err"); auto. destruct (String.eqb_spec k "ierr"); auto. destruct (String.eqb_spec k "var"); auto. destruct (String.eqb_spec k "ivar"); auto 10. Qed.
Lemma forall2_map_l {A B C} (P : C -> B -> Prop) (f : A -> C) l m : Forall2 P (map f l) m <-> Forall2 (fun a b => P (f a) b) l m.
Proof. revert m. induction l as [|a l I]; intros m; cbn [map]; split; intros H; inversion H; subst; constructor; trivial; now apply I. Qed.
Lemma forall2_impl {A B} (P Q : A -> B -> Prop) l m : (forall a b, P a b -> Q a b) -> Forall2 P l m -> Forall2 Q l m.
Proof. intros H. induction 1; constructor; auto. Qed.
Lemma zeros {A} (l : list A) : map (fun _ => 0) l = repeat 0 (List.length l).
Proof. induction l; cbn; congruence. Qed.
(** the flux [fl] in a row and errors as [errors_of] says *)
Lemma finish_sound f c d a err kind rows ee : whole a -> (forall b, err = Some b -> whole b) ->
  (match ee with None => err = None | Some k => exists h, py_get f k = Some h /\ data h = err end) ->
  finish_wcs c d a err kind = Ok rows -> exists fl es, (a = Arr [List.length fl] fl \/ a = Arr [1%nat; List.length fl] fl) /\ errors_of f ee kind fl es /\ List.length es = List.length fl /\ in_order rows (pixels c d fl es).
Proof.
  intros Wa We He H. rewrite finish_arg in H. destruct (err_arg kind err) as [e| |] eqn:Ee; try discriminate. cbn [bind] in H.
  assert (Wx : whole (Arr [size a] (map (fun i => INR i * d + c) (seq 0 (size a))))). { unfold whole. cbn [vals shape fold_right]. rewrite map_length, seq_length. lia. }
  assert (Wq : whole (squeeze a)). { destruct a as [sh vs]. unfold squeeze, whole in *. cbn [shape vals] in *. destruct sh as [|[|[|n]] [|m [|? ?]]]; cbn [shape vals fold_right] in *; lia. }
  assert (We' : match e with NoErr => True | ByErr a | ByIvar a => whole a end).
  { unfold err_arg in Ee. destruct err as [b|]; [specialize (We b eq_refl)|]; destruct (String.eqb kind "err"), (String.eqb kind "ierr"), (String.eqb kind "var"), (String.eqb kind "ivar"); try discriminate; injection Ee as <-; trivial; unfold whole in *; cbn [vals shape]; now rewrite map_length. }
  pose proof (construct_result _ _ _ Wx Wq We') as R. rewrite H in R. destruct R as (Es & es & Eg & Le & Io). cbn [shape vals] in Es.
  assert (Vq : vals (squeeze a) = vals a). { unfold squeeze. destruct (shape a) as [|[|[|n]] [|m [|? ?]]]; reflexivity. }
  symmetry in Es. pose proof Es as Es'. apply squeeze_row in Es; trivial. destruct Es as (fl & Ea). exists fl, es. assert (Vf : vals a = fl) by (destruct Ea as [-> | ->]; reflexivity).
  assert (Sf : size a = List.length fl) by (unfold size; now rewrite Vf).
  rewrite Vq, Vf in *. cbn [vals] in Io. rewrite Sf in *. split; [exact Ea|]. split; [|split; [exact Le|rewrite <- pixels_combine by exact Le; exact Io]].
  assert (Gv : forall b (P : R -> R -> Prop), err = Some b -> shape b = shape (squeeze a) -> (forall v e, P v e -> error_by kind v e) -> Forall2 P (vals b) es -> In kind ["err"; "ierr"; "var"; "ivar"]%string -> errors_of f ee kind fl es).
  { intros b P Eb Sb HP F2 K. destruct ee as [k|]; [|congruence]. destruct He as (h & G & D). specialize (We b Eb). rewrite Es' in Sb. unfold whole in We. rewrite Sb in We. cbn [fold_right] in We.
    apply (e_given f k h (vals b)); trivial; [rewrite D, Eb; f_equal; destruct b as [shb vb]; cbn [shape vals] in *; now subst|lia|now apply (forall2_impl P)]. }
  assert (Gn : err = None -> kind = "err"%string \/ kind = "ivar"%string -> es = map (fun _ => 0) fl -> errors_of f ee kind fl es).
  { intros En K ->. rewrite zeros. destruct ee as [k|]; [destruct He as (h & G & D); apply (e_empty f k h); trivial; congruence|now apply e_none]. }
  destruct (kinds kind) as [->|[->|[->|[->|(K1 & K2 & K3 & K4)]]]]; unfold err_arg in Ee; cbn [String.eqb] in Ee.
  all: try (destruct err as [b|]); try discriminate.
  all: try (rewrite K1, K2, K3, K4 in Ee; discriminate).
  all: injection Ee as <-; cbn [err_given shape vals] in Eg.
  - destruct Eg as (Sb & F2). apply (Gv b (error_by "err")); trivial. now left.
  - apply Gn; auto. now rewrite Vq in Eg || exact Eg.
  - destruct Eg as (Sb & F2). rewrite forall2_map_l in F2. apply (Gv b (fun v e => error_by "err" (1 / v) e)); [reflexivity|exact Sb| |exact F2|now (right; left)].
    intros v e E. unfold error_by in *. cbn [String.eqb Ascii.eqb Bool.eqb] in *. intros N. rewrite E. unfold Rdiv. rewrite Rmult_1_l, <- Rabs_mult, Rinv_l, Rabs_R1 by trivial. trivial.
  - destruct Eg as (Sb & F2). rewrite forall2_map_l in F2. apply (Gv b (fun v e => error_by "ivar" (1 / v) e)); [reflexivity|exact Sb| |exact F2|now (right; right; left)].
    intros v e E. unfold error_by in *. cbn [String.eqb Ascii.eqb Bool.eqb] in *. intros P. destruct E as (Pe & E). { apply Rdiv_lt_0_compat; lra. } split; trivial.
    apply Rmult_eq_reg_r with (1 / v); [rewrite E; field; lra|]. apply Rgt_not_eq. apply Rdiv_lt_0_compat; lra.
  - destruct Eg as (Sb & F2). apply (Gv b (error_by "ivar")); trivial. now (right; right; right; left).
  - apply Gn; auto. now rewrite Vq in Eg.
Qed.
Lemma finish_complete f c d a err kind ee fl es : whole a -> (forall b, err = Some b -> whole b) ->
  (match ee with None => err = None | Some k => exists h, py_get f k = Some h /\ data h = err end) ->
  (a = Arr [List.length fl] fl \/ a = Arr [1%nat; List.length fl] fl) -> errors_of f ee kind fl es -> exists rows, finish_wcs c d a err kind = Ok rows.
Proof.
  intros Wa We He Ea Er. rewrite finish_arg. assert (Sq : shape (squeeze a) = [size a]) by (apply squeeze_row; eauto). assert (Sf : size a = List.length fl) by (destruct Ea as [-> | ->]; reflexivity).
  assert (C : forall e, match e with NoErr => True | ByErr b | ByIvar b => shape b = [List.length fl] end -> exists rows, construct (Arr [size a] (map (fun i => INR i * d + c) (seq 0 (size a)))) (squeeze a) e = Ok rows).
  { intros e E. unfold construct. rewrite Sq. cbn [shape]. destruct (shape_eqb_spec [size a] [size a]); [|congruence]. cbn [negb]. rewrite Sf in *.
    destruct e as [|b|b]; [eauto| |]; rewrite E; destruct (shape_eqb_spec [List.length fl] [List.length fl]); try congruence; cbn [negb]; eauto. }
  assert (exists e, err_arg kind err = Ok e /\ match e with NoErr => True | ByErr b | ByIvar b => shape b = [List.length fl] end) as (e & -> & E); [|now apply C].
  destruct Er as [kind fl K|k h kind fl G D K|k h vs kind fl es G D L K F].
  - subst err. unfold err_arg. destruct K as [-> | ->]; exists NoErr; split; trivial.
  - destruct He as (h' & G' & D'). assert (h' = h) by congruence. subst h'. assert (err = None) as -> by congruence. unfold err_arg. destruct K as [-> | ->]; exists NoErr; split; trivial.
  - destruct He as (h' & G' & D'). assert (h' = h) by congruence. subst h'. assert (err = Some (Arr [List.length fl] vs)) as -> by congruence.
    destruct K as [<-|[<-|[<-|[<-|[]]]]]; unfold err_arg; cbn [String.eqb Ascii.eqb Bool.eqb shape vals]; eexists; (split; [reflexivity|]); reflexivity.
Qed.
(** what is loaded: the numbers of the chosen HDU at CRVAL1 + i CD1_1 (or CDELT1) in the order of x, with the errors that the other HDU gives *)
Lemma load_wcs_finish f fe ee he kind : load_wcs f fe ee he kind =
  bind (match fe with None => match locate 0 f with Some i => Ok (Z.of_nat i, Some (Z.of_nat i)) | None => Raise IOError end | Some i => Ok (i, he) end) (fun '(fe, he) =>
  bind (get f (match he with None => fe | Some j => j end)) (fun hdr =>
  if match ctype1 hdr with None => false | Some t => negb (String.eqb t "LINEAR") end then Raise ValueError else
  match crval1 hdr with
  | None => Raise ValueError
  | Some c => bind (match cd1_1 hdr with Some d => Ok d | None => match cdelt1 hdr with Some d => Ok d | None => Raise ValueError end end) (fun d =>
      bind (get f fe) (fun fh => match data fh with None => Raise AttributeError | Some flux =>
        bind (match ee with None => Ok None | Some k => bind (get f k) (fun h => Ok (data h)) end) (fun err => finish_wcs c d flux err kind) end))
  end)).
Proof. reflexivity. Qed.
Lemma get_inv {A} (l : list A) i (x : A) : get l i = Ok x <-> py_get l i = Some x.
Proof. unfold get. destruct (py_get l i); split; congruence. Qed.
Lemma wcs_sound_rest f fe ee he hf hh kind rows : sound_file f -> chosen f fe he hf hh ->
  (if match ctype1 hh with None => false | Some t => negb (String.eqb t "LINEAR") end then Raise ValueError else
  match crval1 hh with
  | None => Raise ValueError
  | Some c => bind (match cd1_1 hh with Some d => Ok d | None => match cdelt1 hh with Some d => Ok d | None => Raise ValueError end end) (fun d =>
      match data hf with None => Raise AttributeError | Some flux =>
        bind (match ee with None => Ok None | Some k => bind (get f k) (fun h => Ok (data h)) end) (fun err => finish_wcs c d flux err kind) end)
  end) = Ok rows ->
  exists c d fl es, loadable f fe ee he kind c d fl es /\ List.length es = List.length fl /\ in_order rows (pixels c d fl es).
Proof.
  intros W C H. assert (T : ctype1 hh = None \/ ctype1 hh = Some "LINEAR"%string). { destruct (ctype1 hh) as [t|]; [|auto]. destruct (String.eqb_spec t "LINEAR"); [subst; auto|discriminate]. }
  assert (In hf f) as If. { inversion C; subst; [apply in_app_iff; right; now left|eapply get_in; eassumption|eapply get_in; eassumption]. }
  destruct (match ctype1 hh with None => false | Some t => negb (String.eqb t "LINEAR") end); [discriminate|]. destruct (crval1 hh) as [c|] eqn:Ec; [|discriminate].
  destruct (match cd1_1 hh with Some d => Ok d | None => match cdelt1 hh with Some d => Ok d | None => Raise ValueError end end) as [d| |] eqn:Ed; try discriminate. cbn [bind] in H.
  assert (St : step_of hh d). { unfold step_of. destruct (cd1_1 hh); [left; congruence|]. right. split; trivial. destruct (cdelt1 hh); congruence. }
  destruct (data hf) as [flux|] eqn:Df; [|discriminate]. destruct (match ee with None => Ok None | Some k => bind (get f k) (fun h => Ok (data h)) end) as [err| |] eqn:Ee; try discriminate. cbn [bind] in H.
  assert (He : match ee with None => err = None | Some k => exists h, py_get f k = Some h /\ data h = err end).
  { destruct ee as [k|]; [|congruence]. destruct (get f k) as [h| |] eqn:G; try discriminate. apply get_inv in G. cbn [bind] in Ee. exists h. split; congruence. }
  apply (finish_sound f c d flux err kind rows ee) in H; trivial.
  - destruct H as (fl & es & Ea & Er & Le & Io). exists c, d, fl, es. repeat split; trivial; try apply Io. exists hf, hh. repeat split; trivial. unfold row_of. rewrite Df. destruct Ea as [-> | ->]; auto.
  - now apply (W hf).
  - intros b Eb. destruct ee as [k|]; [|congruence]. destruct He as (h & G & D). apply (W h); [now apply get_in in G|congruence].
Qed.
Theorem wcs_sound f fe ee he kind rows : sound_file f -> load_wcs f fe ee he kind = Ok rows ->
  exists c d fl es, loadable f fe ee he kind c d fl es /\ List.length es = List.length fl /\ in_order rows (pixels c d fl es).
Proof.
  intros W. rewrite load_wcs_finish. destruct fe as [i|].
  - cbn [bind]. destruct he as [j|].
    + destruct (get f j) as [hh| |] eqn:G; try discriminate. apply get_inv in G. cbn [bind]. intros H. destruct (get f i) as [hf| |] eqn:Gf.
      * apply get_inv in Gf. apply (wcs_sound_rest f (Some i) ee (Some j) hf hh); trivial. now constructor.
      * exfalso. cbn [bind] in H. destruct (match ctype1 hh with None => false | Some t => negb (String.eqb t "LINEAR") end), (crval1 hh), (cd1_1 hh), (cdelt1 hh); discriminate.
      * exfalso. cbn [bind] in H. destruct (match ctype1 hh with None => false | Some t => negb (String.eqb t "LINEAR") end), (crval1 hh), (cd1_1 hh), (cdelt1 hh); discriminate.
    + destruct (get f i) as [hh| |] eqn:G; try discriminate. cbn [bind]. intros H. apply get_inv in G. apply (wcs_sound_rest f (Some i) ee None hh hh); trivial. now constructor.
  - pose proof (locate_spec f 0) as L. destruct (locate 0 f) as [k|]; [|discriminate]. destruct L as (b & h & a & -> & -> & Sc & F). cbn [bind Nat.add]. rewrite (proj2 (get_inv (b ++ h :: a) (Z.of_nat (List.length b)) h)) by apply get_at.
    cbn [bind]. intros H. apply (wcs_sound_rest _ None ee he h h); trivial. now apply by_scale with b a.
Qed.
Lemma chosen_bind {B} f fe he hf hh (k : hdu -> (@res hdu) -> @res B) : chosen f fe he hf hh ->
  bind (match fe with None => match locate 0 f with Some i => Ok (Z.of_nat i, Some (Z.of_nat i)) | None => Raise IOError end | Some i => Ok (i, he) end) (fun '(fe, he) =>
  bind (get f (match he with None => fe | Some j => j end)) (fun hdr => k hdr (get f fe))) = k hh (Ok hf).
Proof.
  intros C. destruct C as [before h after hd F Sc ->|i h G|i j h h' G G'].
  - pose proof (locate_spec (before ++ h :: after) 0) as L. destruct (locate 0 (before ++ h :: after)) as [n|].
    + destruct L as (b & h' & a & E & -> & Sc' & F'). cbn [bind Nat.add].
      assert (Eb : b = before /\ h' = h).
      { revert before F E. induction b as [|x b I]; intros [|y before] F E; cbn [app] in E; injection E as E1 E2.
        - auto.
        - subst. inversion F; contradiction.
        - subst. inversion F'; contradiction.
        - inversion F; subst. inversion F'; subst. destruct (I H4 before H2 E2) as (-> & ->). auto. }
      destruct Eb as (-> & ->). rewrite (proj2 (get_inv _ _ h)) by apply get_at. reflexivity.
    + exfalso. rewrite List.Forall_forall in L. apply (L h); trivial. apply in_app_iff. right. now left.
  - cbn [bind]. rewrite (proj2 (get_inv _ _ h) G). reflexivity.
  - cbn [bind]. rewrite (proj2 (get_inv _ _ h') G'), (proj2 (get_inv _ _ h) G). reflexivity.
Qed.
Theorem wcs_complete f fe ee he kind c d fl es : sound_file f -> loadable f fe ee he kind c d fl es -> exists rows, load_wcs f fe ee he kind = Ok rows.
Proof.
  intros W (hf & hh & C & T & Ec & St & Ro & Er). rewrite load_wcs_finish.
  rewrite (chosen_bind f fe he hf hh (fun hdr g => if match ctype1 hdr with None => false | Some t => negb (String.eqb t "LINEAR") end then Raise ValueError else
    match crval1 hdr with None => Raise ValueError | Some c => bind (match cd1_1 hdr with Some d => Ok d | None => match cdelt1 hdr with Some d => Ok d | None => Raise ValueError end end) (fun d =>
      bind g (fun fh => match data fh with None => Raise AttributeError | Some flux =>
        bind (match ee with None => Ok None | Some k => bind (get f k) (fun h => Ok (data h)) end) (fun err => finish_wcs c d flux err kind) end)) end) C).
  assert (match ctype1 hh with None => false | Some t => negb (String.eqb t "LINEAR") end = false) as ->. { destruct T as [-> | ->]; reflexivity. }
  rewrite Ec. assert ((match cd1_1 hh with Some d => Ok d | None => match cdelt1 hh with Some d => Ok d | None => Raise ValueError end end) = Ok d) as ->. { destruct St as [-> | (-> & ->)]; reflexivity. }
  cbn [bind]. assert (In hf f) as If. { inversion C; subst; [apply in_app_iff; right; now left|eapply get_in; eassumption|eapply get_in; eassumption]. }
  assert (exists a, data hf = Some a /\ (a = Arr [List.length fl] fl \/ a = Arr [1%nat; List.length fl] fl)) as (a & Da & Ea). { destruct Ro as [E|E]; rewrite E; eauto. }
  rewrite Da. assert (exists err, (match ee with None => Ok None | Some k => bind (get f k) (fun h => Ok (data h)) end) = Ok err /\ match ee with None => err = None | Some k => exists h, py_get f k = Some h /\ data h = err end) as (err & -> & He).
  { destruct Er as [kk ff K|k h kk ff G D K|k h vs kk ff es' G D L K F]; [eauto| |]; rewrite (proj2 (get_inv _ _ h) G); cbn [bind]; eauto. }
  cbn [bind]. apply (finish_complete f c d a err kind ee fl es); trivial. { now apply (W hf). }
  intros b Eb. destruct ee as [k|]; [|congruence]. destruct He as (h & G & D). apply (W h); [now apply get_in in G|congruence].
Qed.
(** increasing scales are loaded as they are, decreasing ones from the end *)
Lemma pixels_sorted c d fl es : 0 < d -> StronglySorted (fun a b : row => fst a < fst b) (pixels c d fl es).
Proof.
  intros D. unfold pixels. generalize 0%nat. induction (List.length fl) as [|n I]; intros k; cbn [seq map]; constructor; [apply I|].
  apply List.Forall_forall. intros x X. apply in_map_iff in X. destruct X as (i & <- & J). apply in_seq in J. cbn [fst]. assert (INR k < INR i) by (apply lt_INR; lia). nra.
Qed.
Lemma pixels_rev_sorted c d fl es : d < 0 -> StronglySorted (fun a b : row => fst a < fst b) (rev (pixels c d fl es)).
Proof.
  intros D. unfold pixels. generalize (List.length fl) as n. induction n as [|n I]; [constructor|]. rewrite seq_S, map_app, rev_app_distr. cbn [map rev app Nat.add]. constructor; trivial.
  apply List.Forall_forall. intros x X. apply in_rev in X. apply in_map_iff in X. destruct X as (i & <- & J). apply in_seq in J. cbn [fst]. assert (INR i < INR n) by (apply lt_INR; lia). nra.
Qed.
Theorem wcs_direction rows c d fl es : in_order rows (pixels c d fl es) -> (0 < d -> rows = pixels c d fl es) /\ (d < 0 -> rows = rev (pixels c d fl es)).
Proof.
  intros (P & S). split; intros D; apply in_order_strict; try (split; trivial); auto using pixels_sorted, pixels_rev_sorted. rewrite P. apply Permutation_rev.
Qed.
(** a given header number is not looked at without a flux number *)
Theorem header_number_ignored f ee he he' kind : load_wcs f None ee he kind = load_wcs f None ee he' kind.
Proof. reflexivity. Qed.
(** no HDU with a scale: IOError *)
Theorem no_scale f ee he kind : List.Forall (fun h => ~ scaled h) f -> load_wcs f None ee he kind = Raise IOError.
Proof.
  intros F. unfold load_wcs. pose proof (locate_spec f 0) as L. destruct (locate 0 f); trivial. destruct L as (b & h & a & -> & _ & Sc & _). exfalso. rewrite List.Forall_forall in F. apply (F h); trivial. apply in_app_iff. right. now left.
Qed.
(** errors stored like the flux, as one row of a table, are refused; without errors inverse errors and variances fail *)
Theorem error_row_refuted : exists fl h, data h = Some (Arr [1%nat; List.length fl] fl) /\ List.length fl = 2%nat /\ (exists rows, load_wcs [h; h] (Some 0%Z) None None "err" = Ok rows) /\ load_wcs [h; h] (Some 0%Z) (Some 1%Z) None "err" = Raise ValueError.
Proof. exists [1; 2], (Hdu (Some 1) (Some 1) None None (Some (Arr [1%nat; 2%nat] [1; 2]))). repeat split. eexists. reflexivity. Qed.
Theorem no_errors_refuted : exists h rows, load_wcs [h] None None None "err" = Ok rows /\ load_wcs [h] None None None "var" = Raise TypeError /\ load_wcs [h] None None None "ierr" = Raise TypeError.
Proof. exists (Hdu (Some 1) (Some 1) None None (Some (Arr [2%nat] [1; 2]))). eexists. repeat split. Qed.
Example wcs_example : exists f, sound_file f /\ loadable f None (Some 1%Z) None "var" 10 (-2) [5; 6; 7] [1; 2; 3].
Proof.
  exists [Hdu None None None None None; Hdu None None None None (Some (Arr [3%nat] [1; 4; 9])); Hdu (Some 10) None (Some (-2)) (Some "LINEAR"%string) (Some (Arr [1%nat; 3%nat] [5; 6; 7]))]. split.
  - intros h a [<-|[<-|[<-|[]]]] E; try discriminate; injection E as <-; reflexivity.
  - eexists _, _. split; [eapply (by_scale _ [Hdu None None None None None; Hdu None None None None (Some (Arr [3%nat] [1; 4; 9]))] _ []); [|split; [|right]|reflexivity]; [|discriminate|discriminate]|]. { repeat constructor; intros (H & _); now apply H. }
    split; [now right|]. split; [reflexivity|]. split; [right; split; reflexivity|]. split; [right; reflexivity|].
    apply (e_given _ _ (Hdu None None None None (Some (Arr [3%nat] [1; 4; 9]))) [1; 4; 9]); try reflexivity; [now (right; right; left)|]. repeat constructor; cbn [error_by String.eqb]; lra.
Qed.
