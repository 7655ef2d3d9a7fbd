(** * VotAny: any stream of events (C101) *)
From Coq Require Import List Bool Arith Ascii String Lia.
From Verif Require Import PyBase PubModel AngStrModel AngStrRead RegModel RegProof VotModel VotSpec VotProof VotRun.
Import ListNotations.

Section Any.
Variables (value : Type) (type_ok : str -> bool) (conv : str -> str -> option value).
Notation run := (run value type_ok conv).
Notation step := (step value type_ok conv).
Notation read := (read value type_ok conv).
Notation fails l := (forall s, read l <> Ok s).
Ltac cases E := repeat match type of E with match ?x with _ => _ end = Ok _ => let Q := fresh "Q" in destruct x eqn:Q; try discriminate end.
Lemma ok_inj {A} (x y : A) : Ok x = Ok y -> x = y. Proof. congruence. Qed.
(** ** Shapes *)
(** array and mask: as many rows, all of one length that is not more than the number of fields; exactly the masked elements were empty *)
Definition shaped (n : nat) (a : list (list (cell value))) (m : list (list bool)) : Prop :=
  exists w, w <= n /\ Forall2 (fun r q => List.length r = w /\ List.length q = w /\ Forall2 (fun c b => b = false <-> c = Zero value) r q) a m.
Lemma fill_shape fs l : forall c m, fill value conv fs l = Ok (c, m) -> List.length c = List.length fs /\ List.length m = List.length fs /\ Forall2 (fun c b => b = false <-> c = Zero value) c m.
Proof.
  revert fs. induction l as [|x l IH]; intros fs c m H; cbn [fill] in H.
  - injection H as <- <-. rewrite !map_length. repeat split. induction fs; cbn [map]; constructor; [split; discriminate|exact IHfs].
  - destruct x as [t|]; [|discriminate]. destruct fs as [|f fs]; [discriminate|]. destruct t as [s|].
    + destruct (conv _ s) as [v|]; [|discriminate]. destruct (fill value conv fs l) as [[c' m']| |] eqn:E; try discriminate. injection H as <- <-. destruct (IH fs c' m' E) as (A & B & C). cbn [List.length]. repeat split; auto. constructor; [split; discriminate|exact C].
    + destruct (fill value conv fs l) as [[c' m']| |] eqn:E; try discriminate. injection H as <- <-. destruct (IH fs c' m' E) as (A & B & C). cbn [List.length]. repeat split; auto. constructor; [split; auto|exact C].
Qed.
Lemma rows_shape fs l : forall a m, fill_rows value conv fs l = Ok (a, m) -> shaped (List.length fs) a m.
Proof.
  intros a m H. exists (List.length fs). split; [lia|]. revert a m H. induction l as [|[r|s|] l IH]; intros a m H; cbn [fill_rows] in H.
  - injection H as <- <-. constructor.
  - destruct (fill value conv fs r) as [[c q]| |] eqn:E; try discriminate. destruct (fill_rows value conv fs l) as [[cs ms]| |] eqn:E'; try discriminate. injection H as <- <-. constructor; [|now apply IH]. destruct (fill_shape fs r c q E) as (A & B & C). auto.
  - destruct (strip s); [now apply IH|discriminate].
  - discriminate.
Qed.
Lemma shaped_mono n n' a m : n <= n' -> shaped n a m -> shaped n' a m.
Proof. intros L (w & W & F). exists w. split; [lia|exact F]. Qed.
Definition tables_ok (s : state value) : Prop := NoDup (map fst (tables value s)) /\ forall n t, assoc n (tables value s) = Some t -> shaped (List.length (t_fields value t)) (t_array value t) (t_mask value t) /\ exists r, t_res value t = Some r /\ r <> [].
(** what is read in a table belongs to it *)
Definition tidy_state (s : state value) : Prop :=
  (intab value s = None -> fields value s = None /\ array value s = None /\ params value s = None) /\
  (intab value s <> None -> exists r, inres value s = Some r /\ r <> []) /\
  (forall a m, array value s = Some (a, m) -> exists f, fields value s = Some f /\ shaped (List.length f) a m).
(** the stream comes from well formed XML: no resource ends while a table is open *)
Fixpoint closed (open : bool) (l : list event) : Prop := match l with [] => True | STable _ _ _ :: l => closed true l | ETable :: l => closed false l | EResource :: l => open = false /\ closed open l | _ :: l => closed open l end.
Lemma step_ok s e s' : step s e = Ok s' -> tables_ok s -> tidy_state s -> (e = EResource -> intab value s = None) -> tables_ok s' /\ tidy_state s'.
Proof.
  intros H T I' C. destruct s as [ta td rd vd rc tc vo ir it rp tp fi nr ar pa]. unfold tables_ok, tidy_state in *. cbn [tables intab fields array params inres] in *. destruct I' as (I1 & I2 & I3).
  assert (TR : forall r, truth ir = Some r -> ir = Some r /\ r <> []) by (intros r; destruct ir as [[|x y]|]; cbn; intros E; try discriminate; injection E as <-; split; [reflexivity|discriminate]).
  destruct e as [name|name ref nrow|  |l| | |n|n| |d| | | | ]; cbn [VotModel.step] in H.
  - destruct (truth ir) eqn:Q; try discriminate. apply ok_inj in H. subst s'. cbn [tables intab fields array params inres]. split; [exact T|]. split; [exact I1|]. split; [|exact I3]. intros N. exfalso. destruct (I2 N) as (r & -> & R). destruct r; [congruence|discriminate].
  - destruct (truth ir) as [r|] eqn:Q; try discriminate. destruct it; try discriminate. destruct ref; try discriminate. apply ok_inj in H. subst s'. cbn [tables intab fields array params inres]. split; [exact T|]. destruct (I1 eq_refl) as (_ & X2 & _). split; [discriminate|]. split; [intros _; destruct (TR r eq_refl); eauto|]. intros a m E. congruence.
  - destruct it; try discriminate. destruct rp; try discriminate. destruct tp; try discriminate. apply ok_inj in H. subst s'. cbn [tables intab fields array params inres]. split; [exact T|]. split; [discriminate|]. split; [intros _; apply I2; discriminate|exact I3].
  - destruct fi as [f|]; try discriminate. destruct pa; try discriminate. destruct nr as [n|]; try discriminate. destruct (process value type_ok conv f n l) as [[a m]| |] eqn:P; try discriminate. apply ok_inj in H. subst s'. cbn [tables intab fields array params inres]. split; [exact T|].
    split; [intros Z; destruct (I1 Z) as (X & _); discriminate|]. split; [exact I2|]. intros a' m' E. injection E as <- <-. exists f. split; [reflexivity|]. unfold process in P. destruct (good_type type_ok f); try discriminate. destruct n as [[|]|]; try discriminate; now apply (rows_shape f l).
  - discriminate.
  - discriminate.
  - destruct (extract_param value conv n) as [p| |]; try discriminate. destruct it as [t|].
    + destruct tp; try discriminate. apply ok_inj in H. subst s'. cbn [tables intab fields array params inres]. auto.
    + destruct (truth ir). { destruct rp; try discriminate. apply ok_inj in H. subst s'. cbn [tables intab fields array params inres]. auto. } apply ok_inj in H. subst s'. cbn [tables intab fields array params inres]. auto.
  - destruct it as [t|]; try discriminate. destruct (extract_field n) as [f| |]; try discriminate. destruct fi as [f0|]; try discriminate. apply ok_inj in H. subst s'. cbn [tables intab fields array params inres]. split; [exact T|]. split; [discriminate|]. split; [exact I2|].
    intros a m E. destruct (I3 a m E) as (f' & F1 & F2). injection F1 as <-. eexists. split; [reflexivity|]. eapply shaped_mono; [|exact F2]. rewrite app_length. lia.
  - discriminate.
  - destruct d as [d|]; try discriminate. destruct (truth ir). { destruct it; apply ok_inj in H; subst s'; cbn [tables intab fields array params inres]; auto. } apply ok_inj in H. subst s'. cbn [tables intab fields array params inres]. auto.
  - apply ok_inj in H. subst s'. cbn [tables intab fields array params inres]. split; [exact T|]. split; [exact I1|]. split; [|exact I3]. intros N. exfalso. now apply N, C.
  - destruct it as [t|]; try discriminate. destruct fi as [f|]; try discriminate. destruct pa as [p|]; try discriminate. destruct ar as [[a m]|]; try discriminate. apply ok_inj in H. subst s'. cbn [tables intab fields array params inres]. split.
    + destruct T as (N & T). split; [now apply put_nodup|]. intros n q. rewrite assoc_put. destruct (str_eqb n t); [|apply T]. intros E. injection E as <-. cbn [t_fields t_array t_mask t_res]. destruct (I3 a m eq_refl) as (f' & F1 & F2). injection F1 as <-. split; [exact F2|]. apply I2. discriminate.
    + split; [auto|]. split; [congruence|discriminate].
  - apply ok_inj in H. subst s'. auto.
  - apply ok_inj in H. subst s'. auto.
Qed.
Lemma init_ok : tables_ok (initial value) /\ tidy_state (initial value).
Proof. split; [split; [constructor|intros n t; discriminate]|]. split; [intros _; cbn; auto|]. split; [intros H; exfalso; now apply H|intros a m H; discriminate]. Qed.
Lemma step_open s e s' : step s e = Ok s' -> match intab value s' with Some _ => true | None => false end = match e with STable _ _ _ => true | ETable => false | _ => match intab value s with Some _ => true | None => false end end.
Proof.
  intros H. destruct s as [ta td rd vd rc tc vo ir it rp tp fi nr ar pa]. cbn [intab]. destruct e as [name|name ref nrow|  |l| | |n|n| |d| | | | ]; cbn [VotModel.step] in H; cases H; try discriminate H; apply ok_inj in H; subst s'; cbn [intab]; try reflexivity; destruct it; reflexivity.
Qed.
Theorem C101_shape : forall l s, read l = Ok s -> closed false l -> tables_ok s.
Proof.
  intros l s H C. assert (G : forall l s0 s, run s0 l = Ok s -> closed (match intab value s0 with Some _ => true | None => false end) l -> tables_ok s0 -> tidy_state s0 -> tables_ok s).
  { clear. induction l as [|e l IH]; intros s0 s H C T I'; cbn [VotModel.run] in H; [apply ok_inj in H; now subst|]. destruct (step s0 e) as [s1| |] eqn:E; try discriminate.
    destruct (step_ok s0 e s1 E T I') as (T1 & J1); [intros ->; cbn [closed] in C; destruct C as [C _]; now destruct (intab value s0)|]. apply (IH s1 s H); auto.
    rewrite (step_open s0 e s1 E). destruct e; cbn [closed] in C; try exact C. tauto. }
  apply (G l _ s H C); [apply init_ok|apply init_ok].
Qed.

(** ** What is refused, wherever it comes *)
Lemma run_at l1 e l2 s0 s : run s0 (l1 ++ e :: l2) = Ok s -> exists s1 s2, run s0 l1 = Ok s1 /\ step s1 e = Ok s2 /\ run s2 l2 = Ok s.
Proof. rewrite run_app. destruct (run s0 l1) as [s1| |]; try discriminate. cbn [VotModel.run]. destruct (step s1 e) as [s2| |] eqn:E; try discriminate. eauto. Qed.
Theorem C101_unsupported : forall l e, In e [SBinary; SFits; SGroup] -> In e l -> fails l.
Proof. intros l e K I' s H. apply in_split in I'. destruct I' as (l1 & l2 & ->). apply run_at in H. destruct H as (s1 & s2 & _ & H & _). destruct s1 as [yta ytd yrd yvd yrc ytc yvo yir yit yrp ytp yfi ynr yar ypa]. destruct K as [<-|[<-|[<-|[]]]]; discriminate. Qed.
Lemma run_keeps (P : state value -> Prop) (bad : event -> bool) : (forall s e s', bad e = false -> P s -> step s e = Ok s' -> P s') -> forall l s s', forallb (fun e => negb (bad e)) l = true -> P s -> run s l = Ok s' -> P s'.
Proof.
  intros K. induction l as [|e l IH]; intros s s' F Ps H; cbn [VotModel.run forallb] in *; [apply ok_inj in H; now subst|]. apply andb_prop in F. destruct F as [F1 F2]. destruct (step s e) as [s1| |] eqn:E; try discriminate.
  apply (IH s1 s' F2); [|exact H]. apply (K s e s1); auto. now destruct (bad e).
Qed.
Definition is_end_res (e : event) : bool := match e with EResource => true | _ => false end.
Definition is_end_table (e : event) : bool := match e with ETable => true | _ => false end.
Definition is_res (e : event) : bool := match e with SResource _ => true | _ => false end.
Definition is_data (e : event) : bool := match e with STableData _ => true | _ => false end.
Ltac steps H := match type of H with VotModel.step _ _ _ ?s ?e = _ => destruct s as [ta td rd vd rc tc vo ir it rp tp fi nr ar pa]; destruct e as [z1|z1 z2 z3| |z1| | |z1|z1| |z1| | | | ]; cbn [VotModel.step] in H; cases H; try discriminate H; apply ok_inj in H; subst end.
(** a resource in a resource, a table in a table, a table outside of resources *)
Theorem C101_nested_resources : forall l1 n l2 n' l3, n <> Some [] -> forallb (fun e => negb (is_end_res e)) l2 = true -> fails (l1 ++ SResource n :: l2 ++ SResource n' :: l3).
Proof.
  intros l1 n l2 n' l3 N F s H. apply run_at in H. destruct H as (s1 & s2 & _ & H1 & H). apply run_at in H. destruct H as (s3 & s4 & H & H3 & _).
  assert (P : truth (inres value s3) <> None).
  { apply (run_keeps (fun s => truth (inres value s) <> None) is_end_res) with (l := l2) (s := s2); auto.
    - intros s0 e s' B Q E. steps E; cbn [inres] in *; try discriminate; auto; congruence.
    - destruct s1 as [yta ytd yrd yvd yrc ytc yvo yir yit yrp ytp yfi ynr yar ypa]. cbn [VotModel.step] in H1. cases H1. apply ok_inj in H1. subst s2. cbn [inres]. destruct n as [[|]|]; cbn; congruence. }
  destruct s3 as [yta ytd yrd yvd yrc ytc yvo yir yit yrp ytp yfi ynr yar ypa]. cbn [VotModel.step inres] in *. destruct (truth _); congruence.
Qed.
Theorem C101_nested_tables : forall l1 n r w l2 n' r' w' l3, forallb (fun e => negb (is_end_table e)) l2 = true -> fails (l1 ++ STable n r w :: l2 ++ STable n' r' w' :: l3).
Proof.
  intros l1 n r w l2 n' r' w' l3 F s H. apply run_at in H. destruct H as (s1 & s2 & _ & H1 & H). apply run_at in H. destruct H as (s3 & s4 & H & H3 & _).
  assert (P : intab value s3 <> None).
  { apply (run_keeps (fun s => intab value s <> None) is_end_table) with (l := l2) (s := s2); auto.
    - intros s0 e s' B Q E. steps E; cbn [intab] in *; try discriminate; auto.
    - destruct s1 as [yta ytd yrd yvd yrc ytc yvo yir yit yrp ytp yfi ynr yar ypa]. cbn [VotModel.step] in H1. cases H1; apply ok_inj in H1; subst s2; cbn [intab]; discriminate. }
  destruct s3 as [yta ytd yrd yvd yrc ytc yvo yir yit yrp ytp yfi ynr yar ypa]. cbn [VotModel.step intab] in *. cases H3; congruence.
Qed.
Theorem C101_outside : forall l1 n r w l2, forallb (fun e => negb (is_res e)) l1 = true -> fails (l1 ++ STable n r w :: l2).
Proof.
  intros l1 n r w l2 F s H. apply run_at in H. destruct H as (s1 & s2 & H & H1 & _).
  assert (P : truth (inres value s1) = None).
  { apply (run_keeps (fun s => truth (inres value s) = None) is_res) with (l := l1) (s := initial value); auto. intros s0 e s' B Q E. steps E; cbn [inres] in *; try discriminate; auto. }
  destruct s1 as [yta ytd yrd yvd yrc ytc yvo yir yit yrp ytp yfi ynr yar ypa]. cbn [VotModel.step inres] in *. rewrite P in H1. discriminate.
Qed.
(** a resource with an empty name counts as none *)
Theorem C101_empty_name_refuted : forall l1 l2 n r w l3, forallb (fun e => negb (is_res e)) l2 = true -> fails (l1 ++ SResource (Some []) :: l2 ++ STable n r w :: l3).
Proof.
  intros l1 l2 n r w l3 F s H. apply run_at in H. destruct H as (s1 & s2 & _ & H1 & H). apply run_at in H. destruct H as (s3 & s4 & H & H3 & _).
  assert (P : truth (inres value s3) = None).
  { apply (run_keeps (fun s => truth (inres value s) = None) is_res) with (l := l2) (s := s2); auto.
    - intros s0 e s' B Q E. steps E; cbn [inres] in *; try discriminate; auto.
    - destruct s1 as [yta ytd yrd yvd yrc ytc yvo yir yit yrp ytp yfi ynr yar ypa]. cbn [VotModel.step] in H1. cases H1. apply ok_inj in H1. now subst s2. }
  destruct s3 as [yta ytd yrd yvd yrc ytc yvo yir yit yrp ytp yfi ynr yar ypa]. cbn [VotModel.step inres] in *. rewrite P in H3. discriminate.
Qed.
(** a table that tells its number of rows cannot be read *)
Theorem C101_nrows_refuted : forall l1 n r c w l2 b l3, forallb (fun e => negb (is_end_table e)) l2 = true -> fails (l1 ++ STable n r (Some (c :: w)) :: l2 ++ STableData b :: l3).
Proof.
  intros l1 n r c w l2 b l3 F s H. apply run_at in H. destruct H as (s1 & s2 & _ & H1 & H). apply run_at in H. destruct H as (s3 & s4 & H & H3 & _).
  assert (P : intab value s3 <> None /\ nrows value s3 = Some (Some (c :: w))).
  { apply (run_keeps (fun s => intab value s <> None /\ nrows value s = Some (Some (c :: w))) is_end_table) with (l := l2) (s := s2); auto.
    - intros s0 e s' B [Q1 Q2] E. steps E; cbn [intab nrows] in *; try discriminate; auto; congruence.
    - destruct s1 as [yta ytd yrd yvd yrc ytc yvo yir yit yrp ytp yfi ynr yar ypa]. cbn [VotModel.step] in H1. cases H1; apply ok_inj in H1; subst s2; cbn [intab nrows]; split; [discriminate|reflexivity]. }
  destruct s3 as [yta ytd yrd yvd yrc ytc yvo yir yit yrp ytp yfi ynr yar ypa]. cbn [VotModel.step intab nrows] in *. destruct P as (_ & ->). cases H3. unfold process in Q1. destruct (good_type type_ok l); discriminate.
Qed.
(** white space between the cells of a row, or anything else that is no cell, is refused *)
Theorem C101_row_space_refuted : forall l1 b row l2, In (TR row) b -> In NotTD row -> fails (l1 ++ STableData b :: l2).
Proof.
  intros l1 b row l2 B R s H. apply run_at in H. destruct H as (s1 & s2 & _ & H & _). destruct s1 as [yta ytd yrd yvd yrc ytc yvo yir yit yrp ytp yfi ynr yar ypa]. cbn [VotModel.step] in H. cases H. unfold process in Q2. destruct (good_type type_ok l); try discriminate.
  assert (FR : forall x y, fill_rows value conv l b = Ok (x, y) -> False).
  { clear - B R. induction b as [|q b IH]; [contradiction|]. intros x y H. cbn [fill_rows] in H. destruct B as [->|B].
    - assert (FF : forall fs x y, fill value conv fs row = Ok (x, y) -> False). { clear - R. induction row as [|t row IH]; [contradiction|]. intros fs x y H. cbn [fill] in H. destruct R as [->|R]; [discriminate|]. destruct t as [t|]; [|discriminate]. destruct fs as [|f fs]; [discriminate|].
        destruct t as [t|]; [destruct (conv _ t); [|discriminate]|]; destruct (fill value conv fs row) as [[uu vv]| |] eqn:E; try discriminate; now apply (IH R fs uu vv). }
      destruct (fill value conv l row) as [[u v]| |] eqn:E; try discriminate. now apply (FF l u v).
    - destruct q as [q|q|]; [|destruct (strip q); [now apply (IH B x y)|discriminate]|discriminate]. destruct (fill value conv l q) as [[u v]| |]; try discriminate. destruct (fill_rows value conv l b) as [[u' v']| |] eqn:E; try discriminate. now apply (IH B u' v'). }
  destruct a as [am1 am2]. destruct o as [[|]|]; try discriminate; now apply (FR am1 am2).
Qed.
(** a table without data cannot be read *)
Theorem C101_no_data_refuted : forall l1 n r w l2 l3, closed false (l1 ++ STable n r w :: l2 ++ ETable :: l3) -> forallb (fun e => negb (is_data e || is_end_table e)) l2 = true -> fails (l1 ++ STable n r w :: l2 ++ ETable :: l3).
Proof.
  intros l1 n r w l2 l3 C F s H. apply run_at in H. destruct H as (s1 & s2 & H0 & H1 & H). apply run_at in H. destruct H as (s3 & s4 & H & H3 & _).
  assert (A2 : array value s2 = None).
  { assert (T : tidy_state s1). { assert (G : forall l s0 s, run s0 l = Ok s -> forall q, closed (match intab value s0 with Some _ => true | None => false end) (l ++ q) -> tables_ok s0 -> tidy_state s0 -> tidy_state s).
      { clear. induction l as [|e l IH]; intros s0 s H q C T I'; cbn [VotModel.run] in H; [apply ok_inj in H; now subst|]. destruct (step s0 e) as [s1| |] eqn:E; try discriminate. cbn [app] in C.
        destruct (step_ok s0 e s1 E T I') as (T1 & J1); [intros ->; cbn [closed] in C; destruct C as [C _]; now destruct (intab value s0)|]. apply (IH s1 s H q); auto.
        rewrite (step_open s0 e s1 E). destruct e; cbn [closed] in C; try exact C. tauto. }
      apply (G l1 _ s1 H0 _ C); [apply init_ok|apply init_ok]. }
    destruct s1 as [ta td rd vd rc tc vo ir it rp tp fi nr ar pa]. destruct T as (T1 & _). cbn [VotModel.step intab fields array params] in *. cases H1; apply ok_inj in H1; subst s2; cbn [array]; now apply T1. }
  assert (P : array value s3 = None).
  { apply (run_keeps (fun s => array value s = None) (fun e => is_data e || is_end_table e)) with (l := l2) (s := s2); auto. intros s0 e s' B Q E. steps E; cbn [array] in *; try discriminate; auto. }
  destruct s3 as [yta ytd yrd yvd yrc ytc yvo yir yit yrp ytp yfi ynr yar ypa]. cbn [VotModel.step array] in *. cases H3.
Qed.
End Any.

(** ** Three tables, two of them left; a row that is too short is not masked *)
Definition fld (name type : string) : node := Node [(L "name", L name); (L "datatype", L type)] [].
Definition cat (name : string) (x : string) : vot_table := VT (Some (L name)) None [inr (fld "x" "int")] [TR [TD (Some (L x))]].
Definition clash : vot := VO None [] [VR (Some (L "r")) None [] [cat "t_3" "1"; cat "t" "2"; cat "t" "3"]].
Definition read_texts := VotModel.read str (fun _ => true) (fun _ s => Some s).
Theorem C101_clash_refuted : exists s, read_texts (doc_events clash) = Ok s /\ map fst (tables str s) = [L "r:t_3"; L "r:t"] /\ getTableArray str s (ByName (L "r:t_3")) = Ok [[Val str (L "3")]] /\
  forall n, getTableArray str s (ByName n) <> Ok [[Val str (L "1")]].
Proof.
  eexists. split; [reflexivity|]. split; [reflexivity|]. split; [reflexivity|]. intros n. unfold getTableArray, query, table_name. match goal with |- context [has n ?q] => set (ta := q) end.
  destruct (has n ta) eqn:H; [|discriminate]. apply has_in in H. destruct H as [<-|[<-|[]]]; discriminate.
Qed.
Theorem C101_short_row_refuted : exists l s, read_texts l = Ok s /\ getTableArray str s (ByIndex 0) = Ok [[Val str (L "1"); Uninit str]] /\ getTableMask str s (ByIndex 0) = Ok [[true; true]].
Proof. exists (doc_events (VO None [] [VR None None [] [VT None None [inr (fld "x" "int"); inr (fld "y" "int")] [TR [TD (Some (L "1"))]]]])). eexists. split; [reflexivity|]. split; reflexivity. Qed.
(** a document with two resources, three tables, strings, an empty cell and a parameter that is overridden *)
Definition sample : vot := VO (Some (L "about")) [Node [(L "name", L "epoch"); (L "datatype", L "float"); (L "value", L "1950")] []]
  [VR (Some (L "cat")) None [] [VT (Some (L "stars")) None [inl (Node [(L "name", L "epoch"); (L "datatype", L "float"); (L "value", L "2000")] []); inr (fld "ra" "double");
       inr (Node [(L "name", L "id"); (L "datatype", L "char"); (L "arraysize", L "8*"); (L "unit", L "none")] [Some (L "a name")])] [Text (L " "); TR [TD (Some (L "1.5")); TD None]; TR [TD (Some (L "2")); TD (Some (L "M31"))]];
     VT None None [inr (fld "x" "int")] []]; VR None None [] [cat "t" "1"]].
Example C100_ex : good str (fun _ => true) (fun _ s => Some s) sample /\ places sample [Place (L "cat:stars") (L "cat") (vo_params sample) (nth 0 (flat_map vr_tables (vo_res sample)) (cat "" ""));
    Place (L "tab2") (L "cat") (vo_params sample) (nth 1 (flat_map vr_tables (vo_res sample)) (cat "" "")); Place (L "res2:t") (L "res2") (vo_params sample) (cat "t" "1")] /\
  exists s, read_texts (Ignored :: doc_events sample) = Ok s /\ getTableArray str s (ByName (L "cat:stars")) = Ok [[Val str (L "1.5"); Zero str]; [Val str (L "2"); Val str (L "M31")]] /\
  getTableMask str s (ByName (L "cat:stars")) = Ok [[true; false]; [true; true]] /\ getTableFieldDtypes str s (ByName (L "cat:stars")) = Ok [(L "ra", L "f8"); (L "id", L "a8")] /\
  (exists t, assoc (L "cat:stars") (tables str s) = Some t /\ assoc (L "epoch") (t_pars str t) = Some (L "2000")).
Proof.
  assert (GF : forall nm ty t', numpy_type (L ty) t' -> good_field (fun _ => true) (fld nm ty)). { intros nm ty t' N. exists (L nm), t', []. split; [reflexivity|]. split; [left; split; reflexivity|]. split; [|reflexivity]. apply (ft_plain _ (L ty)); [reflexivity|exact N|reflexivity]. }
  assert (GP : forall v, good_param str (fun _ s => Some s) (Node [(L "name", L "epoch"); (L "datatype", L "float"); (L "value", L v)] [])).
  { intros v. exists (L "epoch"), (L "float"), (L v), []. repeat split; try reflexivity; [left; split; reflexivity|]. right. exists (L "f4"). split; [constructor|discriminate]. }
  assert (GC : forall a b, good_table str (fun _ => true) (fun _ s => Some s) (cat a b)).
  { intros a b. split; [constructor|]. split; [constructor; [apply (GF "x" "int" (L "i4"))%string; constructor|constructor]|]. split.
    - intros [|i] [|j] x y p q; cbn [heads cat vt_head flat_map app nth_error]; try (intros; congruence); destruct i || destruct j; discriminate.
    - exists [[Some (L b)]]. split; [apply (rows_row [Some (L b)]); constructor|]. constructor; [|constructor]. constructor; [discriminate|constructor]. }
  assert (G8 : good_field (fun _ => true) (Node [(L "name", L "id"); (L "datatype", L "char"); (L "arraysize", L "8*"); (L "unit", L "none")] [Some (L "a name")])).
  { exists (L "id"), (L "a8"), (L "a name"). split; [reflexivity|]. split; [right; reflexivity|]. split; [|reflexivity]. apply (ft_string _ (L "char") (L "a") (L "8") (L "8*")); try reflexivity; [constructor|now left|split; [discriminate|constructor; [cbn; tauto|constructor]]|now right]. }
  split; [|split].
  - split; [constructor; [apply (GP "1950"%string)|constructor]|]. constructor; [split; [constructor|]|constructor; [split; [constructor|constructor; [apply GC|constructor]]|constructor]].
    constructor; [|constructor; [|constructor]].
    + split; [constructor; [apply (GP "2000"%string)|constructor]|]. split; [constructor; [apply (GF "ra" "double" (L "f8"))%string; constructor|constructor; [exact G8|constructor]]|]. split.
      * intros [|[|i]] [|[|j]] x y p q; cbn [heads vt_head flat_map app nth_error]; try (intros; congruence); try (destruct i; discriminate); try (destruct j; discriminate); intros [= <-] [= <-] P Q _ ->; unfold attr in *; cbn in P, Q; congruence.
      * exists [[Some (L "1.5"); None]; [Some (L "2"); Some (L "M31")]]. split.
        { apply rows_space; [intros a [<-|[]]; reflexivity|]. apply (rows_row [Some (L "1.5"); None]). apply (rows_row [Some (L "2"); Some (L "M31")]). constructor. }
        { repeat constructor; discriminate. }
    + split; [constructor|]. split; [constructor; [apply (GF "x" "int" (L "i4"))%string; constructor|constructor]|]. split; [intros [|i] [|j] x y p q; cbn [heads vt_head flat_map app nth_error]; try (intros; congruence); destruct i || destruct j; discriminate|]. exists []. split; [constructor|constructor].
  - unfold places. cbn [vo_res sample].
    apply (res_cons sample [] 0 0 _ _ (L "cat") [_; _] [_]); [split; [discriminate|reflexivity]| |].
    + cbn [vr_tables]. apply places_cons; [exists (L "cat:stars"); split; [reflexivity|]; split; [reflexivity|intros []]|]. apply places_cons; [|constructor]. exists (L "tab2"). split; [reflexivity|]. split; [reflexivity|]. intros [E|[]]; discriminate.
    + apply (res_cons sample _ _ _ _ _ (L "res2") [_] []); [split; [discriminate|reflexivity]| |constructor]. cbn [vr_tables]. apply places_cons; [|constructor]. exists (L "res2:t"). split; [reflexivity|]. split; [reflexivity|]. intros [E|[E|[]]]; discriminate.
  - eexists. split; [reflexivity|]. repeat split. eexists. split; reflexivity.
Qed.
