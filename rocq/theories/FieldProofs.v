(** * FieldProofs *)
From Coq Require Import List ZArith Lia Bool.
From Verif Require Import PyBase FieldModel.
Import ListNotations.

Section Field.
Context {V : Type}.
Implicit Types (f : @field V) (v w : @fval V) (l : list (@fval V)).

Definition srcs l := map v_src l.
Definition unique l := NoDup (srcs l).
Definition without (s : nat) l := filter (fun w => negb (Nat.eqb (v_src w) s)) l.

Lemma find_src_some s l i : find_src s l = Some i ->
  exists v, nth_error l i = Some v /\ v_src v = s.
Proof.
  revert i; induction l as [|w r IH]; intros i H; cbn in H; [discriminate|].
  destruct (Nat.eqb_spec (v_src w) s) as [E|E].
  - injection H as <-. exists w. auto.
  - destruct (find_src s r) as [j|]; [|discriminate]. injection H as <-. destruct (IH j eq_refl) as (v & ? & ?). exists v. auto.
Qed.
Lemma find_src_none s l : find_src s l = None <-> ~ In s (srcs l).
Proof.
  induction l as [|w r IH]; cbn; [tauto|]. destruct (Nat.eqb_spec (v_src w) s) as [E|E].
  - split; [discriminate|tauto].
  - destruct (find_src s r) as [j|]; cbn; [|intuition congruence]. split; [discriminate|].
    intros H. exfalso. apply H. right. destruct (in_dec Nat.eq_dec s (srcs r)) as [|Hn]; auto. apply IH in Hn. discriminate.
Qed.
Lemma find_src_iff s l i v : unique l -> nth_error l i = Some v -> v_src v = s -> find_src s l = Some i.
Proof.
  revert i; induction l as [|w r IH]; intros [|i] Hu E Es; cbn in *; try discriminate.
  - injection E as ->. rewrite Es, Nat.eqb_refl. reflexivity.
  - inversion Hu as [|? ? H1 H2]; subst. destruct (Nat.eqb_spec (v_src w) (v_src v)) as [E'|E'].
    + exfalso. apply H1. rewrite E'. apply in_map. eapply nth_error_In; eauto.
    + rewrite (IH i); auto.
Qed.

Lemma in_without s l w : In w (without s l) <-> In w l /\ v_src w <> s.
Proof. unfold without. rewrite filter_In. destruct (Nat.eqb_spec (v_src w) s); cbn; intuition congruence. Qed.
Lemma without_absent s l : ~ In s (srcs l) -> without s l = l.
Proof.
  induction l as [|w r IH]; cbn; intros H; auto. destruct (Nat.eqb_spec (v_src w) s); [exfalso; auto|]. cbn. f_equal. auto.
Qed.
Lemma without_remove l i v : unique l -> nth_error l i = Some v -> remove_at i l = without (v_src v) l.
Proof.
  revert i; induction l as [|w r IH]; intros [|i] Hu E; try discriminate; inversion Hu as [|? ? H1 H2]; subst.
  - cbn in E. injection E as ->. unfold remove_at. cbn [firstn skipn app without filter]. rewrite Nat.eqb_refl. cbn [negb].
    symmetry. now apply without_absent.
  - cbn in E. unfold remove_at in *. cbn [firstn skipn app without filter].
    destruct (Nat.eqb_spec (v_src w) (v_src v)) as [E'|E'].
    + exfalso. apply H1. rewrite E'. apply in_map. eapply nth_error_In; eauto.
    + cbn [negb]. f_equal. exact (IH i H2 E).
Qed.
Lemma srcs_without s l : srcs (without s l) = filter (fun x => negb (Nat.eqb x s)) (srcs l).
Proof.
  unfold without, srcs in *. induction l as [|w r IH]; cbn [filter map]; auto. destruct (Nat.eqb (v_src w) s); cbn [negb map]; [exact IH|f_equal; exact IH].
Qed.
Lemma unique_without s l : unique l -> unique (without s l).
Proof. unfold unique. rewrite srcs_without. apply NoDup_filter. Qed.
Lemma unique_front v l : unique l -> unique (v :: without (v_src v) l).
Proof.
  intros H. unfold unique. cbn. constructor; [|now apply unique_without].
  intros Hin. apply in_map_iff in Hin. destruct Hin as (w & E & Hw). apply in_without in Hw. tauto.
Qed.
Lemma srcs_set_nth i v l w : nth_error l i = Some w -> v_src w = v_src v -> srcs (set_nth i v l) = srcs l.
Proof.
  revert i; induction l as [|x r IH]; intros [|i] E Es; cbn in *; try discriminate.
  - injection E as ->. congruence.
  - f_equal. eauto.
Qed.
Lemma set_nth_map i v l : unique l -> (exists w, nth_error l i = Some w /\ v_src w = v_src v) ->
  set_nth i v l = map (fun w => if Nat.eqb (v_src w) (v_src v) then v else w) l.
Proof.
  revert i; induction l as [|x r IH]; intros [|i] Hu (w & E & Es); cbn in *; try discriminate; inversion Hu as [|? ? H1 H2]; subst.
  - injection E as ->. rewrite Es, Nat.eqb_refl. f_equal.
    assert (Hr : forall y, In y r -> v_src y <> v_src v).
    { intros y Hy Ey. apply H1. rewrite Es, <- Ey. now apply in_map. }
    clear -Hr. induction r as [|y r IH]; cbn; auto. destruct (Nat.eqb_spec (v_src y) (v_src v)) as [E|E].
    + exfalso. apply (Hr y); auto. now left.
    + f_equal. apply IH. intros z Hz. apply Hr. now right.
  - destruct (Nat.eqb_spec (v_src x) (v_src v)) as [E'|E'].
    + exfalso. apply H1. rewrite E', <- Es. apply in_map. eapply nth_error_In; eauto.
    + f_equal. eauto.
Qed.
Lemma nodup_insert (s : nat) n (l : list nat) : NoDup l -> ~ In s l -> NoDup (firstn n l ++ s :: skipn n l).
Proof.
  intros H1 H2. apply NoDup_Add with (a := s) (l := l).
  - rewrite <- (firstn_skipn n l) at 1. apply Add_app.
  - auto.
Qed.
Lemma srcs_insert_at n v l : srcs (insert_at n v l) = firstn n (srcs l) ++ v_src v :: skipn n (srcs l).
Proof. unfold srcs, insert_at. rewrite map_app, firstn_map. cbn [map]. now rewrite skipn_map. Qed.
Lemma unique_insert n v l : unique l -> ~ In (v_src v) (srcs l) -> unique (insert_at n v l).
Proof. intros H1 H2. unfold unique. rewrite srcs_insert_at. now apply nodup_insert. Qed.

Variable ty : @ftype V.
Variable int_src : Z -> nat.

Lemma check_conv_type_src v w : check_conv_type ty v = Ok w -> v_src w = v_src v /\ v_der w = v_der v.
Proof.
  unfold check_conv_type. destruct (_ && _)%bool; [intros E; injection E as <-; auto|].
  destruct (t_float ty); [|discriminate]. destruct (t_tofloat ty (v_val v)); [|discriminate].
  intros E; injection E as <-. auto.
Qed.
(** effect of the checks on the state *)
Lemma checkConv_vals f i sc f' r : checkConvInVal ty f i sc = (f', r) -> vals f' = vals f.
Proof.
  unfold checkConvInVal. destruct (convert i) as [v|e|]; [|intros E; injection E as <- _; reflexivity..].
  cbn zeta. set (ch := match sc with SCTrue => _ | SCSource s => _ | SCFalse => _ end).
  destruct ch as [v'|e|]; [|intros E; injection E as <- _; reflexivity..].
  destruct (v_der v') as [d|]; [|intros E; injection E as <- _; reflexivity].
  destruct (existsb _ _); intros E; injection E as <- _; reflexivity.
Qed.
Lemma checkConv_ok f i sc f' w : checkConvInVal ty f i sc = (f', Ok w) ->
  exists v, convert i = Ok v /\ v_src w = v_src v /\
    match sc with
    | SCFalse => w = v
    | SCSource s => v_src v = s /\ check_conv_type ty v = Ok w
    | SCTrue => ~ In (v_src v) (srcs (vals f)) /\ check_conv_type ty v = Ok w
    end.
Proof.
  unfold checkConvInVal. destruct (convert i) as [v|e|]; [|discriminate..]. cbn zeta.
  assert (Hw : forall ch : res fval, (match ch with
      | Ok v' => match v_der v' with None => (f, Ok v')
                 | Some d => if existsb (Nat.eqb d) (owned f) then (f, Raise ValueError)
                             else ({| vals := vals f; owned := d :: owned f |}, Ok v') end
      | Raise e => (f, Raise e) | OutOfFuel => (f, OutOfFuel) end) = (f', Ok w) -> ch = Ok w).
  { intros [v'|e|] H; try discriminate. destruct (v_der v') as [d|]; [destruct (existsb _ _)|]; congruence. }
  intros H. apply Hw in H. exists v. split; [reflexivity|]. destruct sc as [|s|].
  - destruct (find_src (v_src v) (vals f)) eqn:E; [discriminate|]. apply find_src_none in E.
    split; [apply (check_conv_type_src _ _ H)|auto].
  - destruct (Nat.eqb_spec (v_src v) s); [|discriminate]. split; [apply (check_conv_type_src _ _ H)|auto].
  - injection H as ->. auto.
Qed.

Lemma convert_fuel (i : @inp V) : convert i <> OutOfFuel.
Proof. destruct i; discriminate. Qed.
Lemma check_type_fuel v : check_conv_type ty v <> OutOfFuel.
Proof. unfold check_conv_type. destruct (_ && _)%bool; [discriminate|]. destruct (t_float ty); [|discriminate]. destruct (t_tofloat ty (v_val v)); discriminate. Qed.
Lemma checkConv_fuel f i sc f' : checkConvInVal ty f i sc <> (f', OutOfFuel).
Proof.
  unfold checkConvInVal. destruct (convert i) as [v|e|] eqn:Ec; [|discriminate|now apply convert_fuel in Ec]. cbn zeta.
  assert (Hch : match sc with SCTrue => match find_src (v_src v) (vals f) with Some _ => Raise ValueError | None => check_conv_type ty v end
      | SCSource s => if v_src v =? s then check_conv_type ty v else Raise ValueError | SCFalse => Ok v end <> OutOfFuel).
  { destruct sc; [destruct (find_src _ _)|destruct (Nat.eqb _ _)|]; try discriminate; apply check_type_fuel. }
  destruct (match sc with SCTrue => _ | SCSource s => _ | SCFalse => _ end) as [w|e|]; [|discriminate|congruence].
  destruct (v_der w); [destruct (existsb _ _)|]; discriminate.
Qed.

Lemma getitem_ok f k i : getitem f k = Ok i -> exists v, nth_error (vals f) i = Some v.
Proof.
  assert (Hs : forall s, get_src f s = Ok i -> exists v, nth_error (vals f) i = Some v).
  { intros s. unfold get_src. destruct (find_src s (vals f)) as [j|] eqn:E; [|discriminate]. intros H; injection H as <-.
    apply find_src_some in E. destruct E as (v & E & _). eauto. }
  assert (Hd : forall l n, In i (der_pos n l) -> n <= i < n + length l).
  { clear. induction l as [|w r IH]; intros n H; cbn in *; [tauto|]. destruct (v_der w).
    - destruct H as [<-|H]; [lia|]. apply IH in H. lia.
    - apply IH in H. lia. }
  destruct k; cbn [getitem]; try discriminate; eauto.
  - destruct (py_index _ z) as [j|] eqn:E; [|discriminate]. intros H; injection H as <-. apply py_index_lt in E.
    destruct (nth_error (vals f) j) eqn:E'; eauto. apply nth_error_None in E'. lia.
  - destruct (_ <=? _)%Z; [discriminate|]. destruct (py_get (der_pos 0 (vals f)) k) as [j|] eqn:E; [|discriminate].
    intros H; injection H as <-. apply py_get_some in E. destruct E as (n & _ & E). apply nth_error_In in E.
    apply Hd in E. destruct (nth_error (vals f) j) eqn:E'; eauto. apply nth_error_None in E'. lia.
Qed.
Lemma getitem_vals f f' k : vals f' = vals f -> getitem f' k = getitem f k.
Proof. intros E. destruct k; cbn [getitem]; unfold get_src; rewrite ?E; reflexivity. Qed.
Lemma contains_cases f k : (exists i, contains f k = Ok true /\ getitem f k = Ok i) \/
  (contains f k = Ok false /\ (getitem f k = Raise KeyError \/ getitem f k = Raise IndexError)) \/
  (exists e, contains f k = Raise e /\ getitem f k = Raise e).
Proof.
  unfold contains. destruct (getitem f k) as [i|e|] eqn:E; [eauto| |].
  - destruct e; eauto 7.
  - exfalso. destruct k; cbn [getitem] in E; unfold get_src in E;
      repeat match type of E with context [match ?x with _ => _ end] => destruct x end; discriminate.
Qed.
Lemma getitem_fuel f k : getitem f k <> OutOfFuel.
Proof.
  intros E. destruct k; cbn [getitem] in E; unfold get_src in E;
    repeat match type of E with context [match ?x with _ => _ end] => destruct x end; discriminate.
Qed.

(** setitem, characterised *)
Lemma setitem_cases ds f k r f' res : setitem ty int_src ds f k r = (f', res) ->
  (vals f' = vals f /\ exists e, res = Raise e) \/
  (res = Ok tt /\ exists v, 
     ((exists i old, getitem f k = Ok i /\ nth_error (vals f) i = Some old /\ v_src v = v_src old /\
         vals f' = set_nth i v (vals f)) \/
      ((getitem f k = Raise KeyError \/ getitem f k = Raise IndexError) /\ (forall z, k <> KInt z) /\
         ~ In (v_src v) (srcs (vals f)) /\ vals f' = vals f ++ [v])) /\
     exists w, convert (pair_with (match k with KDerived _ | KDerivedBad => ds k | _ => key_src int_src k end) r) = Ok w /\
       v_src v = v_src w /\ check_conv_type ty w = Ok v).
Proof.
  unfold setitem. cbn zeta. set (src := match k with KDerived _ | KDerivedBad => ds k | _ => _ end).
  destruct (contains_cases f k) as [(i & -> & E)|[(-> & E)|(e & -> & E)]].
  - rewrite E. destruct (getitem_ok f k i E) as (old & Eo). rewrite Eo.
    destruct (checkConvInVal ty f (pair_with src r) (SCSource (v_src old))) as (f1, [v|e|]) eqn:Ec; intros H; injection H as <- <-.
    + right. split; auto. pose proof (checkConv_vals _ _ _ _ _ Ec) as Ev. apply checkConv_ok in Ec.
      destruct Ec as (w & Ew & Es & Ho & Et). exists v. split.
      * left. exists i, old. rewrite Ev. split; auto. split; auto. split; [congruence|reflexivity].
      * exists w. auto.
    + left. split; [eapply checkConv_vals; eauto|eauto].
    + exfalso. now apply checkConv_fuel in Ec.
  - destruct k as [z| | | | | |]; cbn match; try (intros H; injection H as <- <-; left; split; [reflexivity|eauto]; fail).
    all: match goal with |- context [checkConvInVal ?t ?g ?p SCTrue] => destruct (checkConvInVal t g p SCTrue) as (f1, [v|e|]) eqn:Ec end;
      intros H; injection H as <- <-;
      [ right; split; auto; pose proof (checkConv_vals _ _ _ _ _ Ec) as Ev; apply checkConv_ok in Ec;
        destruct Ec as (w & Ew & Es & Ho & Et); exists v; split;
        [right; split; [exact E|]; split; [discriminate|]; split; [rewrite Es; exact Ho|cbn; rewrite Ev; reflexivity]
        |exists w; auto]
      | left; split; [eapply checkConv_vals; eauto|eauto]
      | exfalso; now apply checkConv_fuel in Ec ].
  - intros H; injection H as <- <-. left. split; [reflexivity|eauto].
Qed.

Lemma setCurr_cases f a f' r : unique (vals f) -> setCurr ty f a = (f', r) ->
  (vals f' = vals f /\ exists e, r = Raise e) \/
  (r = Ok tt /\ exists v, vals f' = v :: without (v_src v) (vals f) /\
     ((exists i, getitem f (arg_key a) = Ok i /\ nth_error (vals f) i = Some v) \/
      ((forall i, getitem f (arg_key a) <> Ok i) /\ convert (arg_inp a) = Ok v))).
Proof.
  intros Hu. unfold setCurr. destruct (getitem f (arg_key a)) as [i|e|] eqn:E.
  - destruct (getitem_ok f _ i E) as (v & Ev). rewrite Ev. intros H; injection H as <- <-. right. split; auto.
    exists v. cbn [with_vals vals]. split; [f_equal; now apply without_remove|]. left. eauto.
  - assert (Hconv : (match checkConvInVal ty f (arg_inp a) SCFalse with
      | (f', Ok v) => let l := match find_src (v_src v) (vals f') with Some i => remove_at i (vals f') | None => vals f' end in
          (with_vals (v :: l) f', Ok tt)
      | (f', Raise e) => (f', Raise e)
      | (f', OutOfFuel) => (f', OutOfFuel)
      end) = (f', r) -> (vals f' = vals f /\ exists e, r = Raise e) \/
       (r = Ok tt /\ exists v, vals f' = v :: without (v_src v) (vals f) /\ convert (arg_inp a) = Ok v)).
    { destruct (checkConvInVal ty f (arg_inp a) SCFalse) as (f1, [v|e1|]) eqn:Ec; [| |now apply checkConv_fuel in Ec].
      - pose proof (checkConv_vals _ _ _ _ _ Ec) as Ev. apply checkConv_ok in Ec. destruct Ec as (w & Ew & _ & ->).
        cbn zeta. intros H; injection H as <- <-. right. split; auto. exists w. split; auto. cbn [with_vals vals]. rewrite Ev. f_equal.
        destruct (find_src (v_src w) (vals f)) as [j|] eqn:Ej.
        + apply find_src_some in Ej. destruct Ej as (x & Ex & Es). rewrite <- Es. now apply without_remove.
        + apply find_src_none in Ej. symmetry. now apply without_absent.
      - intros H; injection H as <- <-. left. split; [eapply checkConv_vals; eauto|eauto]. }
    destruct e; try (intros H; injection H as <- <-; left; split; [reflexivity|eauto]; fail);
      intros H; (destruct (Hconv H) as [?|(? & v & ? & ?)]; [left; auto|right; split; auto; exists v; split; auto; right; split; [discriminate|auto]]).
  - exfalso. now apply getitem_fuel in E.
Qed.

Lemma insert_cases f k i f' r : insert ty f k i = (f', r) ->
  (vals f' = vals f /\ exists e, r = Raise e) \/
  (r = Ok tt /\ exists v n, vals f' = insert_at n v (vals f) /\
     (n = match k with KInt z => py_insert_pos (length (vals f)) z | _ => n end) /\
     ((forall z, k <> KInt z) -> getitem f k = Ok n) /\
     exists w, convert i = Ok w /\ v_src v = v_src w /\ check_conv_type ty w = Ok v /\
     ((forall s, k <> KSource s) -> ~ In (v_src v) (srcs (vals f)))).
Proof.
  unfold insert. set (sc := match k with KSource s => SCSource s | _ => SCTrue end).
  destruct (checkConvInVal ty f i sc) as (f1, [v|e|]) eqn:Ec; [| |now apply checkConv_fuel in Ec].
  2:{ intros H; injection H as <- <-. left. split; [eapply checkConv_vals; eauto|eauto]. }
  pose proof (checkConv_vals _ _ _ _ _ Ec) as Ev. apply checkConv_ok in Ec. destruct Ec as (w & Ew & Es & Hsc).
  assert (Ht : check_conv_type ty w = Ok v /\ ((forall s, k <> KSource s) -> ~ In (v_src v) (srcs (vals f)))).
  { subst sc. destruct k; rewrite Es; destruct Hsc as (H1 & H2); split; auto. intros H. exfalso. now apply (H s). }
  destruct Ht as (Ht1 & Ht2).
  assert (Hpos : forall p, insert_at p v (vals f1) = insert_at p v (vals f)) by (intros; now rewrite Ev).
  destruct k as [z|  | | | | |].
  1:{ intros H; injection H as <- <-. right. split; auto. exists v, (py_insert_pos (length (vals f)) z).
      cbn [with_vals vals]. unfold py_insert. rewrite Ev. split; auto. split; auto. split; [intros H; exfalso; now apply (H z)|].
      exists w. auto. }
  all: rewrite (getitem_vals f f1) by auto;
    match goal with |- context [getitem ?g ?k] => destruct (getitem g k) as [p|e|] eqn:Eg end;
    intros H; injection H as <- <-;
    [right; split; auto; exists v, p; cbn [with_vals vals]; rewrite Ev; split; auto; split; auto; split; auto; exists w; auto
    |left; split; [exact Ev|eauto]
    |now apply getitem_fuel in Eg].
Qed.

Lemma append_cases f i f' r : append ty f i = (f', r) ->
  (vals f' = vals f /\ exists e, r = Raise e) \/
  (r = Ok tt /\ exists v w, vals f' = vals f ++ [v] /\ convert i = Ok w /\ v_src v = v_src w /\ check_conv_type ty w = Ok v /\
     ~ In (v_src v) (srcs (vals f))).
Proof.
  unfold append. intros H. apply insert_cases in H. destruct H as [?|(-> & v & n & E1 & E2 & _ & w & Ew & Es & Et & Hn)]; [left; auto|].
  right. split; auto. exists v, w. rewrite E1, E2, py_insert_pos_nonneg by lia. unfold insert_at.
  rewrite firstn_all, skipn_all. split; auto. split; auto. split; auto. split; auto. apply Hn. discriminate.
Qed.

Lemma delitem_cases f k f' r : unique (vals f) -> delitem f k = (f', r) ->
  (f' = f /\ exists e, r = Raise e) \/
  (r = Ok tt /\ exists i v, getitem f k = Ok i /\ nth_error (vals f) i = Some v /\ vals f' = without (v_src v) (vals f)).
Proof.
  intros Hu. unfold delitem. destruct (getitem f k) as [i|e|] eqn:E; intros H; injection H as <- <-.
  - right. split; auto. destruct (getitem_ok f k i E) as (v & Ev). exists i, v. split; auto. split; auto. cbn [with_vals vals].
    now apply without_remove.
  - left. eauto.
  - now apply getitem_fuel in E.
Qed.
Lemma pop_cases f z f' r : unique (vals f) -> pop f z = (f', r) ->
  (f' = f /\ exists e, r = Raise e) \/ (exists v, r = Ok v /\ vals f' = without (v_src v) (vals f) /\ In v (vals f)).
Proof.
  intros Hu. unfold pop. destruct (getitem f (KInt z)) as [i|e|] eqn:E.
  - destruct (getitem_ok f _ i E) as (v & Ev). rewrite Ev. intros H; injection H as <- <-. right. exists v.
    split; auto. split; [cbn [with_vals vals]; now apply without_remove|eapply nth_error_In; eauto].
  - intros H; injection H as <- <-. left. eauto.
  - now apply getitem_fuel in E.
Qed.
(** reverse raises as soon as there are two values *)
Lemma reverse_raises ds f : unique (vals f) -> 2 <= length (vals f) -> reverse ty int_src ds f = (f, Raise ValueError).
Proof.
  intros Hu Hl. unfold reverse. destruct (Nat.div (length (vals f)) 2) as [|st] eqn:Ed.
  { exfalso. assert (2 / 2 <= length (vals f) / 2) by (apply Nat.div_le_mono; lia). rewrite Ed in H. change (2/2) with 1 in H. lia. }
  destruct (nth_error (vals f) (length (vals f) - 0 - 1)) as [a|] eqn:Ea.
  2:{ apply nth_error_None in Ea. lia. }
  destruct (nth_error (vals f) 0) as [b|] eqn:Eb.
  2:{ apply nth_error_None in Eb. lia. }
  assert (Hab : v_src a <> v_src b).
  { intros E. pose proof (find_src_iff _ _ _ _ Hu Ea E) as F1. pose proof (find_src_iff _ _ _ _ Hu Eb eq_refl) as F2.
    rewrite F1 in F2. injection F2. lia. }
  assert (Hs : setitem ty int_src ds f (KInt (Z.of_nat 0)) (RVal a) = (f, Raise ValueError)).
  { unfold setitem. cbn zeta. unfold contains. cbn [getitem]. rewrite py_index_nonneg by lia. rewrite Eb.
    unfold checkConvInVal. cbn [pair_with convert]. destruct (Nat.eqb_spec (v_src a) (v_src b)); [congruence|]. reflexivity. }
  rewrite Hs. reflexivity.
Qed.
Lemma reverse_small ds f : length (vals f) < 2 -> reverse ty int_src ds f = (f, Ok tt).
Proof. intros H. unfold reverse. rewrite Nat.div_small by auto. reflexivity. Qed.

(** ** invariants *)
Definition fop_ok (o : @fop V) : Prop := match o with FInsert (KSource _) _ => False | _ => True end.

Lemma unique_app_last v l : unique l -> ~ In (v_src v) (srcs l) -> unique (l ++ [v]).
Proof.
  intros H1 H2. replace (l ++ [v]) with (insert_at (length l) v l).
  - now apply unique_insert.
  - unfold insert_at. now rewrite firstn_all, skipn_all.
Qed.
Lemma fstep_unique f o : fop_ok o -> unique (vals f) -> unique (vals (fstep ty int_src f o)).
Proof.
  intros Ho Hu. destruct o as [ds k r|k|k i|i|z|a|ds]; cbn [fstep].
  - destruct (setitem ty int_src ds f k r) as (f', res) eqn:E. apply setitem_cases in E. cbn [fst].
    destruct E as [(-> & _)|(_ & v & [(i & old & _ & En & Es & ->)|(_ & _ & Hn & ->)] & _)]; auto.
    + unfold unique. rewrite (srcs_set_nth i v _ old); auto.
    + now apply unique_app_last.
  - destruct (delitem f k) as (f', r) eqn:E. apply delitem_cases in E; auto. cbn [fst].
    destruct E as [(-> & _)|(_ & i & v & _ & _ & ->)]; auto. now apply unique_without.
  - destruct (insert ty f k i) as (f', r) eqn:E. apply insert_cases in E. cbn [fst].
    destruct E as [(-> & _)|(_ & v & n & -> & _ & _ & w & _ & _ & _ & Hn)]; auto.
    apply unique_insert; auto. apply Hn. intros s ->. destruct Ho.
  - destruct (append ty f i) as (f', r) eqn:E. apply append_cases in E. cbn [fst].
    destruct E as [(-> & _)|(_ & v & w & -> & _ & _ & _ & Hn)]; auto. now apply unique_app_last.
  - destruct (pop f z) as (f', r) eqn:E. apply pop_cases in E; auto. cbn [fst].
    destruct E as [(-> & _)|(v & _ & -> & _)]; auto. now apply unique_without.
  - destruct (setCurr ty f a) as (f', r) eqn:E. apply setCurr_cases in E; auto. cbn [fst].
    destruct E as [(-> & _)|(_ & v & -> & _)]; auto. now apply unique_front.
  - destruct (Nat.lt_ge_cases (length (vals f)) 2).
    + now rewrite reverse_small.
    + now rewrite reverse_raises.
Qed.
Lemma frun_unique ops : forall f, Forall fop_ok ops -> unique (vals f) -> unique (vals (frun ty int_src f ops)).
Proof.
  induction ops as [|o r IH]; intros f Ho Hu; cbn; auto. inversion Ho; subst. apply IH; auto. now apply fstep_unique.
Qed.

(** types *)
Definition typed v := t_ok ty (v_val v) = true.
Definition fop_typed (o : @fop V) : Prop :=
  match o with FCurr a => forall v, convert (arg_inp a) = Ok v -> typed v | _ => True end.
Hypothesis tofloat_ok : forall x y, t_float ty = true -> t_tofloat ty x = Some y -> t_ok ty y = true.
Lemma check_typed w v : check_conv_type ty w = Ok v -> typed v.
Proof.
  unfold check_conv_type, typed. destruct (t_ok ty (v_val w)) eqn:E; cbn [andb].
  - destruct (forallb _ _); [intros H; injection H as <-; auto|].
    destruct (t_float ty) eqn:F; [|discriminate]. destruct (t_tofloat ty (v_val w)) eqn:G; [|discriminate].
    intros H; injection H as <-. cbn. eauto.
  - destruct (t_float ty) eqn:F; [|discriminate]. destruct (t_tofloat ty (v_val w)) eqn:G; [|discriminate].
    intros H; injection H as <-. cbn. eauto.
Qed.
Lemma Forall_set_nth (P : fval -> Prop) i v l : P v -> Forall P l -> Forall P (set_nth i v l).
Proof. intros Hv H. revert i; induction H as [|x r Hx Hr IH]; intros [|i]; cbn; constructor; auto. Qed.
Lemma Forall_insert_at (P : fval -> Prop) i v l : P v -> Forall P l -> Forall P (insert_at i v l).
Proof.
  intros Hv H. unfold insert_at. rewrite Forall_app. rewrite <- (firstn_skipn i l) in H. apply Forall_app in H. destruct H.
  split; auto.
Qed.
Lemma Forall_without (P : fval -> Prop) s l : Forall P l -> Forall P (without s l).
Proof. rewrite !Forall_forall. intros H x Hx. apply in_without in Hx. apply H. tauto. Qed.
Lemma fstep_typed f o : fop_ok o -> fop_typed o -> unique (vals f) -> Forall typed (vals f) ->
  Forall typed (vals (fstep ty int_src f o)).
Proof.
  intros Ho Hot Hu Ht. destruct o as [ds k r|k|k i|i|z|a|ds]; cbn [fstep].
  - destruct (setitem ty int_src ds f k r) as (f', res) eqn:E. apply setitem_cases in E. cbn [fst].
    destruct E as [(-> & _)|(_ & v & Hc & w & _ & _ & Hw)]; auto. apply check_typed in Hw.
    destruct Hc as [(i & old & _ & _ & _ & ->)|(_ & _ & _ & ->)].
    + now apply Forall_set_nth.
    + apply Forall_app. auto.
  - destruct (delitem f k) as (f', r) eqn:E. apply delitem_cases in E; auto. cbn [fst].
    destruct E as [(-> & _)|(_ & i & v & _ & _ & ->)]; auto. now apply Forall_without.
  - destruct (insert ty f k i) as (f', r) eqn:E. apply insert_cases in E. cbn [fst].
    destruct E as [(-> & _)|(_ & v & n & -> & _ & _ & w & _ & _ & Hw & Hn)]; auto. apply check_typed in Hw. now apply Forall_insert_at.
  - destruct (append ty f i) as (f', r) eqn:E. apply append_cases in E. cbn [fst].
    destruct E as [(-> & _)|(_ & v & w & -> & _ & _ & Hw & Hn)]; auto. apply check_typed in Hw. apply Forall_app. auto.
  - destruct (pop f z) as (f', r) eqn:E. apply pop_cases in E; auto. cbn [fst].
    destruct E as [(-> & _)|(v & _ & -> & _)]; auto. now apply Forall_without.
  - destruct (setCurr ty f a) as (f', r) eqn:E. apply setCurr_cases in E; auto. cbn [fst].
    destruct E as [(-> & _)|(_ & v & -> & Hv)]; auto. constructor; [|now apply Forall_without].
    destruct Hv as [(i & _ & En)|(_ & Hc)]; [|now apply Hot].
    rewrite Forall_forall in Ht. apply Ht. eapply nth_error_In; eauto.
  - destruct (Nat.lt_ge_cases (length (vals f)) 2).
    + now rewrite reverse_small.
    + now rewrite reverse_raises.
Qed.
Lemma frun_typed ops : forall f, Forall fop_ok ops -> Forall fop_typed ops -> unique (vals f) -> Forall typed (vals f) ->
  Forall typed (vals (frun ty int_src f ops)).
Proof.
  induction ops as [|o r IH]; intros f Ho Hot Hu Ht; cbn; auto. inversion Ho; inversion Hot; subst.
  apply IH; auto; [now apply fstep_unique|now apply fstep_typed].
Qed.
End Field.
