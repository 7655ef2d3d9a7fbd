(** * LoadDeimos: spectra of both sides of DEIMOS (C111) *)
From Coq Require Import List Bool Reals Lra Lia ZArith String Permutation Sorted Arith.
From Verif Require Import PyBase SpecModel SpecObj SmModel SmProof LoadModel LoadProof.
Import ListNotations.
Open Scope R_scope.

(** ** what a file holds *)
(** the two extensions that an extraction is stored in *)
Definition ext_names (pfcasesen : bool) (extraction nb nr : string) : Prop :=
  (extraction = "horne" /\ nb = (if pfcasesen then "Horne-B" else "HORNE-B") /\ nr = (if pfcasesen then "Horne-R" else "HORNE-R"))%string \/
  (extraction = "boxcar" /\ nb = (if pfcasesen then "Bxspf-B" else "BXSPF-B") /\ nr = (if pfcasesen then "Bxspf-R" else "BXSPF-R"))%string.
(** the side [s] is stored as the only extension of the name [n] *)
Definition stored (f : list ext) (n : string) (s : side) : Prop := exists p before after, f = p :: before ++ (Some n, Some s) :: after /\ (forall e, In e (before ++ after) -> fst e <> Some n).
Definition absent (f : list ext) (n : string) : Prop := forall e, In e (tl f) -> fst e <> Some n.
Definition all_named (f : list ext) : Prop := forall e, In e (tl f) -> fst e <> None.
Inductive holds (f : list ext) (nb nr : string) : side -> option side -> option side -> Prop :=
| both b r : stored f nb b -> stored f nr r -> holds f nb nr (Side (lam b ++ lam r) (spc b ++ spc r) (ivr b ++ ivr r) (sky b ++ sky r)) (Some b) (Some r)
| only_b b : stored f nb b -> absent f nr -> holds f nb nr b None None
| only_r r : stored f nr r -> absent f nb -> holds f nb nr r None None.
Definition even (s : side) : Prop := List.length (spc s) = List.length (lam s) /\ List.length (ivr s) = List.length (lam s).
(** the rows of a side: its numbers in the order of LAMBDA with the errors that IVAR gives *)
Definition rows_of (d : side) (rows : list row) : Prop := exists es, Forall2 (error_by "ivar") (ivr d) es /\ in_order rows (combine (lam d) (combine (spc d) es)).

(** ** the dictionary of names *)
Lemma ext_dict_all l : forall i, (forall e, In e l -> fst e <> None) -> exists d, ext_dict i l = Ok d /\
  (forall k n, nth_error d k = Some n <-> exists s, nth_error l k = Some (Some (fst n), s) /\ snd n = (i + k)%nat).
Proof.
  induction l as [|[[n|] s] l I]; intros i H; cbn [ext_dict].
  - exists []. split; trivial. intros [|k] n; cbn; split; intros X; try discriminate; destruct X as (s & X & _); discriminate.
  - destruct (I (S i)) as (d & -> & D); [intros e E; apply H; now right|]. exists ((n, i) :: d). split; trivial. intros [|k] m; cbn [nth_error].
    + split; [intros X; injection X as <-; exists s; split; trivial; cbn; lia|]. intros (s' & X & Y). destruct m as [m j]. cbn [fst snd] in *. injection X as <- <-. do 2 f_equal. lia.
    + rewrite D. split; intros (s' & X & Y); exists s'; split; trivial; lia.
  - exfalso. apply (H (None, s)); [now left|reflexivity].
Qed.
Lemma last_none n (d : list (string * nat)) : (forall p, In p d -> fst p <> n) -> forall a, fold_left (fun (a : option nat) p => if String.eqb (fst p) n then Some (snd p) else a) d a = a.
Proof.
  induction d as [|p d I]; intros H a; trivial. cbn [fold_left]. destruct (String.eqb_spec (fst p) n) as [E|E]; [exfalso; apply (H p); [now left|exact E]|]. apply I. intros q Q. apply H. now right.
Qed.
Lemma last_of_some n d1 i d2 : (forall p, In p (d1 ++ d2) -> fst p <> n) -> last_of n (d1 ++ (n, i) :: d2) = Some i.
Proof.
  intros H. unfold last_of. rewrite fold_left_app. cbn [fold_left fst snd]. rewrite String.eqb_refl. apply last_none. intros p P. apply H. apply in_app_iff. now right.
Qed.
Lemma nth_split_in {A} (l : list A) k x : nth_error l k = Some x -> In x l.
Proof. apply nth_error_In. Qed.
Lemma dict_find f nb d : ext_dict 1 (tl f) = Ok d -> all_named f ->
  (forall s, stored f nb s -> exists i, last_of nb d = Some i /\ nth_error f i = Some (Some nb, Some s)) /\ (absent f nb -> last_of nb d = None).
Proof.
  intros E A. destruct (ext_dict_all (tl f) 1 A) as (d' & E' & D). rewrite E in E'. injection E' as <-. split.
  - intros s (p & b & a & -> & U). cbn [tl] in *.
    assert (N : nth_error d (List.length b) = Some (nb, S (List.length b))). { apply D. cbn [fst snd]. exists (Some s). split; [|reflexivity]. rewrite nth_error_app2 by lia. now rewrite Nat.sub_diag. }
    destruct (nth_error_split _ _ N) as (d1 & d2 & Ed & L1). exists (S (List.length b)). split.
    + rewrite Ed. apply last_of_some. intros q Q Eq. assert (exists k, k <> List.length b /\ nth_error d k = Some q) as (k & Nk & Kq).
      { apply in_app_iff in Q. destruct Q as [Q|Q]; apply In_nth_error in Q; destruct Q as (k & Q).
        - assert (k < List.length d1)%nat by (apply nth_error_Some; congruence). exists k. split; [lia|]. rewrite Ed, nth_error_app1 by lia. exact Q.
        - exists (S (List.length d1 + k))%nat. split; [lia|]. rewrite Ed, nth_error_app2 by lia. replace (S (List.length d1 + k) - List.length d1)%nat with (S k) by lia. exact Q. }
      apply D in Kq. destruct Kq as (s' & Kq & _). apply (U (Some (fst q), s')); [|cbn [fst]; congruence].
      destruct (Nat.lt_ge_cases k (List.length b)).
      * rewrite nth_error_app1 in Kq by lia. apply in_app_iff. left. now apply nth_error_In in Kq.
      * rewrite nth_error_app2 in Kq by lia. destruct (k - List.length b)%nat as [|m] eqn:Em; [lia|]. cbn [nth_error] in Kq. apply in_app_iff. right. now apply nth_error_In in Kq.
    + cbn [nth_error]. rewrite nth_error_app2 by lia. now rewrite Nat.sub_diag.
  - intros Ab. unfold last_of. apply last_none. intros q Q Eq. apply In_nth_error in Q. destruct Q as (k & Q). apply D in Q. destruct Q as (s' & Q & _). apply (Ab (Some (fst q), s')); [now apply nth_error_In in Q|cbn [fst]; congruence].
Qed.
Lemma by_name_app n l r s : (forall e, In e l -> fst e <> Some n) -> by_name n (l ++ (Some n, s) :: r) = Some s.
Proof.
  induction l as [|[[m|] t] l I]; intros H; cbn [app by_name].
  - now rewrite String.eqb_refl.
  - destruct (String.eqb_spec m n) as [->|]; [exfalso; apply (H (Some n, t)); [now left|reflexivity]|]. apply I. intros e E. apply H. now right.
  - apply I. intros e E. apply H. now right.
Qed.
Lemma stored_by_name f n s : stored f n s -> (forall p, nth_error f 0 = Some p -> fst p <> Some n) -> by_name n f = Some (Some s).
Proof.
  intros (p & b & a & -> & U) P. specialize (P p eq_refl). rewrite app_comm_cons. apply by_name_app. intros e [<-|E]; trivial. apply U. apply in_app_iff. now left.
Qed.

(** ** the spectrum of a side *)
Lemma shape_same a : shape_eqb a a = true.
Proof. destruct (shape_eqb_spec a a); congruence. Qed.
Lemma construct_side d : even d -> exists rows, construct (line (lam d)) (line (spc d)) (ByIvar (line (ivr d))) = Ok rows /\ rows_of d rows.
Proof.
  intros (E1 & E2). assert (W : forall l, whole (line l)) by (intros; apply whole_line).
  pose proof (construct_result (line (lam d)) (line (spc d)) (ByIvar (line (ivr d))) (W _) (W _) (W _)) as R.
  destruct (construct _ _ _) as [rows|x|]; [|exfalso|contradiction].
  - exists rows. split; trivial. destruct R as (_ & es & (_ & F) & _ & Io). exists es. split; trivial.
  - destruct R as (_ & [N|N]); apply N; cbn [shape line]; congruence.
Qed.
Lemma columns (rows : list row) : combine (map fst rows) (combine (map (fun p => fst (snd p)) rows) (map (fun p => snd (snd p)) rows)) = rows.
Proof. induction rows as [|[x [f e]] r I]; cbn [map combine fst snd]; congruence. Qed.
Definition spectrum_rows (rows : list row) : spectrum := Spec (map fst rows) (map (fun p => fst (snd p)) rows) (map (fun p => snd (snd p)) rows) UAng None None 0.
(** the rows with flux and errors smoothed, [w] being sigmas of a gaussian or minus the half width of a box *)
Definition smoothed (w : R) (rows rows' : list row) : Prop := exists s' f e,
  smooth (spectrum_rows rows) w None true = (s', Ok (f, e)) /\ map fst rows' = map fst rows /\ map (fun p => fst (snd p)) rows' = f /\ map (fun p => snd (snd p)) rows' = e.
Definition smooth_asked (smoothing : option R) (rows rows' : list row) : Prop := match smoothing with None => rows' = rows | Some w => (w = 0 /\ rows' = rows) \/ (w <> 0 /\ smoothed w rows rows') end.
Definition named (fn : string) : Prop := contains "spec1d" fn = true /\ contains "fits" fn = true.
(** the table that is not an extension does not have one of the names *)
Definition primary_other (f : list ext) (nb nr : string) : Prop := forall p, nth_error f 0 = Some p -> fst p <> Some nb /\ fst p <> Some nr.

Lemma ext_names_eq pf extraction nb nr : ext_names pf extraction nb nr -> exists extname,
  (if String.eqb extraction "horne" then Ok (if pf then "Horne" else "HORNE")%string else if String.eqb extraction "boxcar" then Ok (if pf then "Bxspf" else "BXSPF")%string else Raise ValueError) = Ok extname /\ nb = (extname ++ "-B")%string /\ nr = (extname ++ "-R")%string.
Proof. intros [(-> & -> & ->)|(-> & -> & ->)]; destruct pf; eexists; (split; [reflexivity|]); split; reflexivity. Qed.
(** the part after the choice of the side *)
Definition finish_deimos (d : side) (bd rd : option side) (smoothing : option R) (retdata : bool) : @res deimos :=
  bind (construct (line (lam d)) (line (spc d)) (ByIvar (line (ivr d)))) (fun l =>
  let s := Spec (map fst l) (map (fun p => fst (snd p)) l) (map (fun p => snd (snd p)) l) UAng None None 0 in
  bind (match smoothing with
        | None => Ok s
        | Some w => if Req_EM_T w 0 then Ok s else
                    let '(s', r) := if Rlt_dec w 0 then smooth s (w * -1) (Some "boxcar"%string) true else smooth s w (Some "gaussian"%string) true in bind r (fun _ => Ok s')
        end) (fun s =>
  if retdata && negb (has bd) then Raise NameErr
  else Ok (Deimos (combine (sx s) (combine (sflux s) (serr s))) (sky d) bd rd))).
Lemma load_finish pf fn f extraction smoothing retdata nb nr d bd rd : named fn -> ext_names pf extraction nb nr -> all_named f -> primary_other f nb nr -> holds f nb nr d bd rd ->
  load_deimos pf fn f extraction smoothing retdata = finish_deimos d bd rd smoothing retdata.
Proof.
  intros (N1 & N2) En A P H. unfold load_deimos. rewrite N1, N2. cbn [negb orb]. destruct (ext_names_eq _ _ _ _ En) as (extname & -> & Eb & Er). cbn [bind]. cbv zeta. rewrite <- Eb, <- Er.
  destruct (ext_dict_all (tl f) 1 A) as (dd & E & _). rewrite E. cbn [bind]. destruct (dict_find f nb dd E A) as (Fb & Ab). destruct (dict_find f nr dd E A) as (Fr & Ar).
  destruct H as [b r Sb Sr|b Sb Nr|r Sr Nb].
  - destruct (Fb b Sb) as (i & -> & Ei). destruct (Fr r Sr) as (j & -> & Ej). rewrite Ei, Ej. reflexivity.
  - destruct (Fb b Sb) as (i & -> & Ei). rewrite (Ar Nr). rewrite (stored_by_name f nb b Sb); [reflexivity|]. intros p Hp. now apply (P p).
  - destruct (Fr r Sr) as (j & -> & Ej). rewrite (Ab Nb). rewrite (stored_by_name f nr r Sr); [reflexivity|]. intros p Hp. now apply (P p).
Qed.
Lemma columns_back x : forall f e, List.length f = List.length x -> List.length e = List.length x -> let rows := combine x (combine f e) in
  map fst rows = x /\ map (fun p : row => fst (snd p)) rows = f /\ map (fun p : row => snd (snd p)) rows = e.
Proof.
  induction x as [|a x I]; intros [|b f] [|c e] Lf Le; try discriminate; cbn [combine map fst snd]; auto. destruct (I f e) as (E1 & E2 & E3); [now injection Lf|now injection Le|]. repeat split; congruence.
Qed.
Lemma smooth_step rows w s' f e : smooth (spectrum_rows rows) w None true = (s', Ok (f, e)) -> smoothed w rows (combine (sx s') (combine (sflux s') (serr s'))).
Proof.
  intros E. exists s', f, e. split; trivial. pose proof (smooth_replaces (spectrum_rows rows) w None true) as R. rewrite E in R. destruct R as (-> & Lf & Le). cbn [sx sflux serr spectrum_rows] in *. rewrite !map_length in Lf, Le. apply columns_back; now rewrite map_length.
Qed.
(** ** the theorem: with [retdata] only for two sides.  Smoothing fails only for a box of less than one pixel *)
Theorem deimos_result pf fn f extraction smoothing retdata nb nr d bd rd :
  named fn -> ext_names pf extraction nb nr -> all_named f -> primary_other f nb nr -> holds f nb nr d bd rd -> even d -> (retdata = true -> bd <> None) ->
  match load_deimos pf fn f extraction smoothing retdata with
  | Ok (Deimos rows' sk b r) => sk = sky d /\ b = bd /\ r = rd /\ exists rows, rows_of d rows /\ smooth_asked smoothing rows rows'
  | Raise _ => exists w, smoothing = Some w /\ - (1 / 2) < w < 0
  | OutOfFuel => False
  end.
Proof.
  intros N En A P H Ev Rd. rewrite (load_finish pf fn f extraction smoothing retdata nb nr d bd rd) by trivial. unfold finish_deimos. destruct (construct_side d Ev) as (rows & -> & Ro). cbn [bind].
  assert (Nr : retdata && negb (has bd) = false). { destruct retdata; trivial. destruct bd; trivial. now specialize (Rd eq_refl). } rewrite Nr.
  destruct smoothing as [w|]; [|cbn [bind sx sflux serr]; rewrite columns; repeat split; trivial; exists rows; split; trivial; reflexivity].
  destruct (Req_EM_T w 0) as [->|Nw]; [cbn [bind sx sflux serr]; rewrite columns; repeat split; trivial; exists rows; split; trivial; left; auto|].
  fold (spectrum_rows rows). assert (Es : (if Rlt_dec w 0 then smooth (spectrum_rows rows) (w * -1) (Some "boxcar"%string) true else smooth (spectrum_rows rows) w (Some "gaussian"%string) true) = smooth (spectrum_rows rows) w None true).
  { destruct (sign_selects (spectrum_rows rows) w true) as (G & B). destruct (Rlt_dec w 0); [rewrite B by trivial; now replace (w * -1) with (- w) by ring|rewrite G by lra; reflexivity]. }
  rewrite Es. destruct (smooth (spectrum_rows rows) w None true) as (s', r') eqn:E. destruct r' as [[fl e]|x|]; cbn [bind].
  - repeat split; trivial. exists rows. split; trivial. right. split; trivial. now apply smooth_step with fl e.
  - exists w. split; trivial. revert E. unfold smooth. destruct (Rlt_dec 0 w); [discriminate|]. change ("boxcar" =? "gaussian")%string with false. change ("boxcar" =? "boxcar")%string with true. cbv iota.
    unfold uniform_filter1d. destruct (Z.ltb_spec (RealTrig.rfloor (2 * - w)) 1) as [L|L]; [|discriminate]. intros _. split; [|lra]. destruct (RealTrig.rfloor_spec (2 * - w)) as (_ & U). assert (L' : (RealTrig.rfloor (2 * - w) + 1 <= 1)%Z) by lia. apply IZR_le in L'. rewrite plus_IZR in L'. lra.
  - revert E. unfold smooth. destruct (Rlt_dec 0 w); [discriminate|]. change ("boxcar" =? "gaussian")%string with false. change ("boxcar" =? "boxcar")%string with true. cbv iota.
    unfold uniform_filter1d. destruct (Z.ltb_spec (RealTrig.rfloor (2 * - w)) 1) as [L|L]; discriminate.
Qed.
(** smoothing leaves the positions *)
Theorem deimos_smoothing_x pf fn f extraction smoothing retdata rows sk b r : load_deimos pf fn f extraction smoothing retdata = Ok (Deimos rows sk b r) ->
  exists rows0, load_deimos pf fn f extraction None retdata = Ok (Deimos rows0 sk b r) /\ map fst rows = map fst rows0.
Proof.
  unfold load_deimos. destruct (negb (contains "spec1d" fn) || negb (contains "fits" fn)); [discriminate|]. destruct (if String.eqb extraction "horne" then _ else _) as [en| |]; try discriminate. cbn [bind].
  destruct (ext_dict 1 (tl f)) as [dd| |]; try discriminate. cbn [bind]. cbv zeta. match goal with |- bind ?m _ = _ -> _ => destruct m as [[[d bd] rd]| |]; try discriminate end. cbn [bind].
  destruct (construct (line (lam d)) (line (spc d)) (ByIvar (line (ivr d)))) as [l| |]; try discriminate. cbn [bind]. fold (spectrum_rows l).
  destruct smoothing as [w|].
  2:{ cbn [bind]. intros E. destruct (retdata && negb (has bd)); [discriminate|]. eexists. split; [exact E|reflexivity]. }
  destruct (Req_EM_T w 0); [cbn [bind]; intros E; destruct (retdata && negb (has bd)); [discriminate|]; eexists; split; [exact E|reflexivity]|].
  assert (K : forall s' y g h, smooth (spectrum_rows l) y g true = (s', Ok h) -> map fst (combine (sx s') (combine (sflux s') (serr s'))) = map fst l).
  { intros s' y g [fl e] E. pose proof (smooth_replaces (spectrum_rows l) y g true) as R. rewrite E in R. destruct R as (-> & Lf & Le). cbn [sx sflux serr spectrum_rows] in *. rewrite !map_length in Lf, Le. apply columns_back; now rewrite map_length. }
  destruct (Rlt_dec w 0).
  - destruct (smooth (spectrum_rows l) (w * -1) (Some "boxcar"%string) true) as (s', [h| |]) eqn:E; cbn [bind]; try discriminate. destruct (retdata && negb (has bd)); [discriminate|]. intros Q. injection Q as <- <- <- <-. eexists. split; [reflexivity|]. rewrite (K _ _ _ _ E). cbn [sx sflux serr spectrum_rows]. now rewrite columns.
  - destruct (smooth (spectrum_rows l) w (Some "gaussian"%string) true) as (s', [h| |]) eqn:E; cbn [bind]; try discriminate. destruct (retdata && negb (has bd)); [discriminate|]. intros Q. injection Q as <- <- <- <-. eexists. split; [reflexivity|]. rewrite (K _ _ _ _ E). cbn [sx sflux serr spectrum_rows]. now rewrite columns.
Qed.
(** ** refusals *)
Theorem deimos_file_name pf fn f extraction smoothing retdata : ~ named fn -> load_deimos pf fn f extraction smoothing retdata = Raise ValueError.
Proof. intros N. unfold load_deimos, named in *. destruct (contains "spec1d" fn), (contains "fits" fn); cbn [negb orb]; trivial. exfalso. apply N. auto. Qed.
(** what it is to occur in a name *)
Lemma prefix_app a b : String.prefix a b = true <-> exists c, b = (a ++ c)%string.
Proof.
  revert b. induction a as [|x a I]; intros [|y b]; cbn [String.prefix String.append].
  - split; eauto.
  - split; eauto.
  - split; [discriminate|intros (c & E); discriminate].
  - destruct (Ascii.ascii_dec x y) as [->|N]; [rewrite I; split; intros (c & E); exists c; congruence|]. split; [discriminate|intros (c & E); congruence].
Qed.
Theorem named_spec fn : named fn <-> (exists a b, fn = a ++ "spec1d" ++ b)%string /\ (exists a b, fn = a ++ "fits" ++ b)%string.
Proof.
  assert (C : forall n h, contains n h = true <-> exists a b, (h = a ++ n ++ b)%string).
  { intros n. induction h as [|y h I]; cbn [contains]; rewrite orb_true_iff, prefix_app.
    - split; [intros [(c & E)|D]; [exists ""%string, c; exact E|discriminate]|]. intros ([|z a] & b & E); [left; exists b; exact E|discriminate].
    - rewrite I. split.
      + intros [(c & E)|(a & b & E)]; [exists ""%string, c; exact E|exists (String y a), b; cbn; congruence].
      + intros ([|z a] & b & E); [left; exists b; exact E|right; exists a, b; cbn in E; congruence]. }
  unfold named. now rewrite !C.
Qed.
Theorem deimos_refused pf fn f extraction smoothing retdata : named fn ->
  (extraction <> "horne"%string -> extraction <> "boxcar"%string -> load_deimos pf fn f extraction smoothing retdata = Raise ValueError) /\
  (forall nb nr, ext_names pf extraction nb nr -> (all_named f -> absent f nb -> absent f nr -> load_deimos pf fn f extraction smoothing retdata = Raise KeyError) /\ (~ all_named f -> load_deimos pf fn f extraction smoothing retdata = Raise KeyError)).
Proof.
  intros (N1 & N2). unfold load_deimos. rewrite N1, N2. cbn [negb orb]. split.
  - intros A B. destruct (String.eqb_spec extraction "horne"); [contradiction|]. destruct (String.eqb_spec extraction "boxcar"); [contradiction|]. reflexivity.
  - intros nb nr En. destruct (ext_names_eq _ _ _ _ En) as (en & -> & Eb & Er). cbn [bind]. cbv zeta. rewrite <- Eb, <- Er. split.
    + intros A Ab Ar. destruct (ext_dict_all (tl f) 1 A) as (dd & E & _). rewrite E. cbn [bind]. destruct (dict_find f nb dd E A) as (_ & Fb). destruct (dict_find f nr dd E A) as (_ & Fr). now rewrite (Fb Ab), (Fr Ar).
    + intros A. assert (R : forall l i, ~ (forall e : ext, In e l -> fst e <> None) -> ext_dict i l = Raise KeyError).
      { induction l as [|[[n|] s] l I]; intros i H; cbn [ext_dict]; trivial; [exfalso; apply H; contradiction|]. rewrite I; trivial. intros C. apply H. intros e [<-|E]; [discriminate|now apply C]. }
      now rewrite (R (tl f) 1%nat A).
Qed.
(** ** the sky *)
Lemma sorted_app {A} (R : A -> A -> Prop) l m : StronglySorted R l -> StronglySorted R m -> (forall a b, In a l -> In b m -> R a b) -> StronglySorted R (l ++ m).
Proof.
  induction l as [|x l I]; intros Sl Sm H; trivial. inversion Sl as [|? ? Sl' F]; subst. cbn [app]. constructor; [apply I; trivial; intros; apply H; trivial; now right|]. apply List.Forall_forall. intros y Y. apply in_app_iff in Y. destruct Y as [Y|Y]; [now apply (proj1 (List.Forall_forall _ _) F)|apply H; trivial; now left].
Qed.
Lemma sorted_fst (x : list R) : forall y : list (R * R), StronglySorted Rlt x -> StronglySorted (fun a b : row => fst a < fst b) (combine x y).
Proof.
  induction x as [|a x I]; intros [|b y] H; cbn [combine]; try constructor; inversion H as [|? ? H' F]; subst; [now apply I|]. apply List.Forall_forall. intros [c z] C. apply in_combine_l in C. cbn [fst]. now apply (proj1 (List.Forall_forall _ _) F).
Qed.
(** LAMBDA increasing over the blue and then the red side: the positions are those of the file, so that the sky belongs to them *)
Theorem sky_aligned d rows : even d -> StronglySorted Rlt (lam d) -> rows_of d rows -> map fst rows = lam d.
Proof.
  intros (E1 & E2) So (es & F & Io). apply in_order_strict in Io; [|now apply sorted_fst]. subst rows. assert (Le : List.length es = List.length (lam d)). { rewrite <- E2. clear - F. induction F; cbn; congruence. } apply columns_back; congruence.
Qed.
(** otherwise only the rest of the rows is put in order *)
Theorem sky_misplaced_refuted : exists f rows sk b r, load_deimos true "spec1d.fits" f "horne" None true = Ok (Deimos rows sk (Some b) (Some r)) /\
  even b /\ even r /\ lam b ++ lam r = [1; 3; 2; 4] /\ sky b ++ sky r = [10; 30; 20; 40] /\ map fst rows = [1; 2; 3; 4] /\ sk = [10; 30; 20; 40].
Proof.
  set (b := Side [1; 3] [0; 0] [1; 1] [10; 30]). set (r := Side [2; 4] [0; 0] [1; 1] [20; 40]). set (f := [(None, None); (Some "Horne-B"%string, Some b); (Some "Horne-R"%string, Some r)] : list ext).
  pose proof (deimos_result true "spec1d.fits" f "horne" None true "Horne-B" "Horne-R" (Side (lam b ++ lam r) (spc b ++ spc r) (ivr b ++ ivr r) (sky b ++ sky r)) (Some b) (Some r)) as H.
  destruct (load_deimos true "spec1d.fits" f "horne" None true) as [[rows sk b' r']| |] eqn:E.
  - destruct H as (-> & -> & -> & rows0 & (es & F & Io) & Sm); trivial.
    + split; reflexivity.
    + left. repeat split.
    + intros e [<-|[<-|[]]]; discriminate.
    + intros p X. injection X as <-. split; discriminate.
    + constructor; [exists (None, None), [], [(Some "Horne-R"%string, Some r)]|exists (None, None), [(Some "Horne-B"%string, Some b)], []]; (split; [reflexivity|]); intros e [<-|[]]; discriminate.
    + split; reflexivity.
    + discriminate.
    + cbn [smooth_asked] in Sm. subst rows0. cbn in F. inversion F as [|? e1 ? ? _ F1]; subst. inversion F1 as [|? e2 ? ? _ F2]; subst. inversion F2 as [|? e3 ? ? _ F3]; subst. inversion F3 as [|? e4 ? ? _ F4]; subst. inversion F4; subst. cbn [lam spc app combine b r] in Io.
      assert (Er : rows = [(1, (0, e1)); (2, (0, e3)); (3, (0, e2)); (4, (0, e4))]).
      { apply in_order_strict; [|repeat constructor; cbn [fst]; lra]. destruct Io as (P & So). split; trivial. rewrite P. apply perm_skip. apply perm_swap. }
      subst rows. exists f, [(1, (0, e1)); (2, (0, e3)); (3, (0, e2)); (4, (0, e4))], [10; 30; 20; 40], b, r. split; [exact E|]. split; [split; reflexivity|]. split; [split; reflexivity|]. repeat split.
  - exfalso. destruct H as (w & Hw & _); trivial; [split; reflexivity|left; repeat split|intros e0 [<-|[<-|[]]]; discriminate|intros p X; injection X as <-; split; discriminate| |split; reflexivity|discriminate|discriminate].
    constructor; [exists (None, None), [], [(Some "Horne-R"%string, Some r)]|exists (None, None), [(Some "Horne-B"%string, Some b)], []]; (split; [reflexivity|]); intros e0 [<-|[]]; discriminate.
  - exfalso. apply H; trivial; [split; reflexivity|left; repeat split|intros e0 [<-|[<-|[]]]; discriminate|intros p X; injection X as <-; split; discriminate| |split; reflexivity|discriminate].
    constructor; [exists (None, None), [], [(Some "Horne-R"%string, Some r)]|exists (None, None), [(Some "Horne-B"%string, Some b)], []]; (split; [reflexivity|]); intros e0 [<-|[]]; discriminate.
Qed.
(** one side only: the tables cannot be asked for *)
Theorem one_side_data_refuted pf fn f extraction nb nr d : named fn -> ext_names pf extraction nb nr -> all_named f -> primary_other f nb nr -> holds f nb nr d None None -> even d ->
  (exists x, load_deimos pf fn f extraction None false = Ok x) /\ load_deimos pf fn f extraction None true = Raise NameError.
Proof.
  intros N En A P H Ev. destruct (construct_side d Ev) as (rows & E & _). split; rewrite (load_finish pf fn f extraction None _ nb nr d None None) by trivial; unfold finish_deimos; rewrite E; cbn [bind andb negb has]; eauto.
Qed.
(** ** all files *)
Lemma load_each_rest {A} (load : string -> @res A) fns : forall pre, let '(specs, rem) := load_each load (List.length pre) fns in
  specs = flat_map (fun fn => match load fn with Ok s => [s] | _ => [] end) fns /\
  fold_left (fun l i => remove_at i l) (rev rem) (pre ++ fns) = pre ++ filter (fun fn => match load fn with Ok _ => true | _ => false end) fns.
Proof.
  induction fns as [|fn r I]; intros pre; cbn [load_each]; [split; reflexivity|]. specialize (I (pre ++ [fn])). rewrite app_length in I. cbn [List.length] in I. replace (List.length pre + 1)%nat with (S (List.length pre)) in I by lia.
  destruct (load_each load (S (List.length pre)) r) as [specs rem]. destruct I as (-> & I). rewrite <- app_assoc in I. cbn [app] in I. cbn [flat_map filter].
  assert (Rm : forall t, remove_at (List.length pre) (pre ++ fn :: t) = pre ++ t).
  { intros t. unfold remove_at. rewrite firstn_app, Nat.sub_diag, firstn_all. cbn [firstn]. rewrite app_nil_r. f_equal. rewrite skipn_app. replace (S (List.length pre) - List.length pre)%nat with 1%nat by lia. rewrite (skipn_all2 pre) by lia. reflexivity. }
  destruct (load fn) as [s|x|]; cbn [app]; split; trivial.
  - rewrite I. now rewrite <- app_assoc.
  - cbn [rev]. rewrite fold_left_app, I. cbn [fold_left]. rewrite <- app_assoc. cbn [app]. apply Rm.
  - cbn [rev]. rewrite fold_left_app, I. cbn [fold_left]. rewrite <- app_assoc. cbn [app]. apply Rm.
Qed.
(** every file that can be loaded under its own name, and no other *)
Theorem load_all_result {A} (load : string -> @res A) fns : load_all load fns = flat_map (fun fn => match load fn with Ok s => [(fn, s)] | _ => [] end) fns.
Proof.
  unfold load_all. pose proof (load_each_rest load fns []) as H. cbn [List.length app] in H. destruct (load_each load 0 fns) as [specs rem]. destruct H as (-> & ->).
  induction fns as [|fn r I]; trivial. cbn [flat_map filter]. destruct (load fn); cbn [app combine]; congruence.
Qed.
Theorem load_all_members {A} (load : string -> @res A) fns fn s : In (fn, s) (load_all load fns) <-> In fn fns /\ load fn = Ok s.
Proof.
  rewrite load_all_result, in_flat_map. split.
  - intros (g & G & H). destruct (load g) as [t| |] eqn:E; try contradiction. destruct H as [H|[]]. injection H as -> ->. auto.
  - intros (H & E). exists fn. split; trivial. rewrite E. now left.
Qed.
