(** * SexProof: configuration files of SExtractor (C116) *)
From Coq Require Import List Bool ZArith String Ascii Arith Lia.
From Verif Require Import PyBase PubModel PubProps PubComments IoModel IoColumns IoFiles RegModel RegProof SexModel.
Import ListNotations.

(** ** Specification of the output of sex -dd *)
(** an option with its value and comment; a line with only a comment; other lines *)
Definition entry_line (k v c l : str) : Prop := exists b a vs, l = b ++ hash :: a /\ ~ In hash b /\ words [] b = k :: vs /\ v = join [sp] vs /\ c = strip a.
Definition more_line (c l : str) : Prop := exists b a, l = b ++ hash :: a /\ b <> [] /\ Forall space b /\ c = strip a.
Definition other_line (l : str) : Prop := ~ In hash l \/ exists a, l = hash :: a.
Inductive more_lines : str -> list str -> Prop :=
| ml_nil : more_lines [] []
| ml_more c c' l ls : more_line c l -> more_lines c' ls -> more_lines (c ++ c') (l :: ls)
| ml_other c l ls : other_line l -> more_lines c ls -> more_lines c (l :: ls).
Inductive dump : list (str * str * str) -> list str -> Prop :=
| d_nil : dump [] []
| d_cons k v c c' l ls rest ls' : entry_line k v c l -> more_lines c' ls -> dump rest ls' -> dump ((k, v, c ++ c') :: rest) (l :: ls ++ ls').
Definition key_of (x : str * str * str) : str := fst (fst x).

Lemma words_spaces b : forall cur, Forall space b -> words cur b = match cur with [] => [] | _ => [cur] end.
Proof. induction b as [|a b I]; intros cur F; cbn [words]; [reflexivity|]. inversion F as [|? ? Fa Fb]; subst. rewrite Fa. destruct cur; rewrite I by trivial; reflexivity. Qed.
Lemma words_nonempty b : forall cur, cur <> [] \/ ~ Forall space b -> words cur b <> [].
Proof.
  induction b as [|a b I]; intros cur H; cbn [words].
  - destruct cur; [|discriminate]. destruct H as [H|H]; [congruence|]. exfalso. apply H. constructor.
  - destruct (is_space a) eqn:E.
    + destruct cur; [|discriminate]. apply I. right. destruct H as [H|H]; [congruence|]. intros F. apply H. constructor; trivial.
    + apply I. left. now destruct cur.
Qed.
Lemma words_nil b : words [] b = [] <-> Forall space b.
Proof. split; [|intros F; now rewrite (words_spaces b [] F)]. intros E. destruct (Forall_dec space (fun a => bool_dec (is_space a) true) b) as [F|N]; trivial. exfalso. now apply (words_nonempty b [] (or_intror N)). Qed.
Lemma words_word_aux w : forall cur r, Forall (fun a => ~ space a) w -> words cur (w ++ r) = words (cur ++ w) r.
Proof. induction w as [|a w I]; intros cur r F; cbn [app]; [now rewrite app_nil_r|]. inversion F as [|? ? Fa Fw]; subst. cbn [words]. destruct (is_space a) eqn:E; [contradiction|]. rewrite I by trivial. now rewrite <- app_assoc. Qed.
Definition word (w : str) : Prop := w <> [] /\ Forall (fun a => ~ space a) w.
Lemma words_cons w a r : word w -> space a -> words [] (w ++ a :: r) = w :: words [] r.
Proof. intros (N & F) S. rewrite words_word_aux by trivial. cbn [app words]. rewrite S. destruct w; [congruence|reflexivity]. Qed.
Lemma words_one w : word w -> words [] w = [w].
Proof. intros (N & F). rewrite <- (app_nil_r w) at 1. rewrite words_word_aux by trivial. cbn [app words]. destruct w; [congruence|reflexivity]. Qed.
Lemma words_space a r : space a -> words [] (a :: r) = words [] r.
Proof. intros S. cbn [words]. now rewrite S. Qed.
Lemma words_app_spaces x y : forall cur, Forall space y -> words cur (x ++ y) = words cur x.
Proof.
  induction x as [|a x I]; intros cur F; cbn [app]; [rewrite words_spaces by trivial; reflexivity|]. cbn [words]. destruct (is_space a); [|now apply I]. destruct cur; now rewrite I.
Qed.
Lemma find_no c s : ~ In c s -> find [c] s = None.
Proof. intros N. destruct (find [c] s) as [(x, r)|] eqn:E; trivial. apply find_first in E. destruct E as (E & _). exfalso. apply N. rewrite E. apply in_app_iff. right. now left. Qed.
Lemma entry_step st k v c l : entry_line k v c l -> conf_line st l = match o_key st with None => OS (o_opts st) (o_info st) (o_order st) (Some k) v c | Some k0 => OS (put k0 (o_val st) (o_opts st)) (put k0 (o_comm st) (o_info st)) (o_order st ++ [k0]) (Some k) v c end.
Proof.
  intros (b & a & vs & -> & N & W & -> & ->). unfold conf_line. rewrite find_here by exact N. destruct b as [|b0 b]; [discriminate|]. rewrite W. reflexivity.
Qed.
Lemma more_step st c ls : more_lines c ls -> fold_left conf_line ls st = OS (o_opts st) (o_info st) (o_order st) (o_key st) (o_val st) (o_comm st ++ c).
Proof.
  intros H. revert st. induction H as [|c c' l ls M H I|c l ls O H I]; intros st; cbn [fold_left]; [destruct st; cbn; now rewrite app_nil_r| |].
  - destruct M as (b & a & -> & N & F & ->). assert (E : conf_line st (b ++ hash :: a) = OS (o_opts st) (o_info st) (o_order st) (o_key st) (o_val st) (o_comm st ++ strip a)).
    { unfold conf_line. rewrite find_here. 2:{ intros X. rewrite Forall_forall in F. specialize (F hash X). discriminate. } destruct b as [|b0 b]; [congruence|]. assert (W : words [] (b0 :: b) = []) by now apply words_nil. rewrite W. reflexivity. }
    rewrite E, I. cbn [o_opts o_info o_order o_key o_val o_comm]. now rewrite <- app_assoc.
  - assert (E : conf_line st l = st). { unfold conf_line. destruct O as [O|(a & ->)]; [rewrite (find_no hash l O)|]; destruct st as [a1 a2 a3 a4 a5 a6]; cbn; now rewrite app_nil_r. } now rewrite E, I.
Qed.
Lemma dump_step blocks ls : dump blocks ls -> forall st k v c, o_key st = Some k -> o_val st = v -> o_comm st = c ->
  let st' := fold_left conf_line ls st in let all := (k, v, c) :: blocks in
  o_order st' = o_order st ++ map key_of (removelast all) /\ o_opts st' = fold_left (fun d x => put (key_of x) (snd (fst x)) d) (removelast all) (o_opts st) /\ o_info st' = fold_left (fun d x => put (key_of x) (snd x) d) (removelast all) (o_info st).
Proof.
  intros D. induction D as [|k1 v1 c1 c' l ls rest ls' E M D I]; intros st k v c Ek Ev Ec; cbv zeta; [cbn; now rewrite app_nil_r|].
  cbn [fold_left]. rewrite (entry_step st k1 v1 c1 l E), Ek, fold_left_app, (more_step _ c' ls M). cbn [o_opts o_info o_order o_key o_val o_comm].
  specialize (I (OS (put k (o_val st) (o_opts st)) (put k (o_comm st) (o_info st)) (o_order st ++ [k]) (Some k1) v1 (c1 ++ c')) k1 v1 (c1 ++ c') eq_refl eq_refl eq_refl). cbv zeta in I. destruct I as (I1 & I2 & I3). rewrite I1, I2, I3. cbn [o_opts o_info o_order].
  change (removelast ((k, v, c) :: (k1, v1, c1 ++ c') :: rest)) with ((k, v, c) :: removelast ((k1, v1, c1 ++ c') :: rest)). cbn [map fold_left key_of fst snd]. rewrite Ev, Ec, <- app_assoc. repeat split; reflexivity.
Qed.
Lemma puts_assoc {A} (f : str * str * str -> A) l : NoDup (map key_of l) -> forall d, (forall x, In x l -> assoc (key_of x) (fold_left (fun d x => put (key_of x) (f x) d) l d) = Some (f x)) /\ (forall k, ~ In k (map key_of l) -> assoc k (fold_left (fun d x => put (key_of x) (f x) d) l d) = assoc k d).
Proof.
  induction l as [|x l I]; intros ND d; cbn [fold_left]; [split; [contradiction|reflexivity]|]. cbn [map] in ND. inversion ND as [|? ? Nx Nl]; subst. destruct (I Nl (put (key_of x) (f x) d)) as (I1 & I2). split.
  - intros y [<-|Y]; [rewrite I2 by exact Nx; apply assoc_put_same|now apply I1].
  - intros k K. rewrite I2 by (intros Z; apply K; now right). apply assoc_put_other. intros ->. apply K. now left.
Qed.
(** all options but the last, in order, each with its value (words separated by one space) and its comments *)
Theorem sex_defaults conf parm pre blocks ls c0 : split_on nl conf = pre ++ ls -> more_lines c0 pre -> dump blocks ls -> NoDup (map key_of blocks) ->
  let i := getSexDefaults conf parm in optorder i = map key_of (removelast blocks) /\
  (forall k v c, In (k, v, c) (removelast blocks) -> assoc k (defaultopts i) = Some v /\ assoc k (optinfo i) = Some c) /\
  (forall k, ~ In k (map key_of (removelast blocks)) -> assoc k (defaultopts i) = None /\ assoc k (optinfo i) = None).
Proof.
  intros S P D ND i. unfold i, getSexDefaults, read_conf. rewrite S, fold_left_app, (more_step _ c0 pre P). cbn [o_opts o_info o_order o_key o_val o_comm optorder defaultopts optinfo].
  destruct D as [|k v c c' l ls rest ls' E M D]; [cbn; repeat split; contradiction|]. cbn [fold_left]. rewrite (entry_step _ k v c l E). cbn [o_opts o_info o_order o_key o_val o_comm]. rewrite fold_left_app, (more_step _ c' ls M). cbn [o_opts o_info o_order o_key o_val o_comm].
  destruct (dump_step rest ls' D (OS [] [] [] (Some k) v (c ++ c')) k v (c ++ c') eq_refl eq_refl eq_refl) as (I1 & I2 & I3). rewrite I1, I2, I3. cbn [o_opts o_info o_order app]. clear I1 I2 I3.
  set (all := (k, v, c ++ c') :: rest) in *. assert (ND' : NoDup (map key_of (removelast all))). { assert (Na : all <> []) by discriminate. destruct (exists_last Na) as (u & y & Eu). rewrite Eu in *. rewrite removelast_last. rewrite map_app in ND. cbn [map] in ND. apply NoDup_remove_1 in ND. now rewrite app_nil_r in ND. }
  destruct (puts_assoc (fun x => snd (fst x)) _ ND' []) as (A1 & A2). destruct (puts_assoc (fun x => snd x) _ ND' []) as (B1 & B2). split; [reflexivity|]. split.
  - intros k' v' c1 H. split; [exact (A1 (k', v', c1) H)|exact (B1 (k', v', c1) H)].
  - intros k' H. split; [now rewrite A2|now rewrite B2].
Qed.
(** every text is such a dump *)
Theorem every_dump ls : exists pre blocks rest c0, ls = pre ++ rest /\ more_lines c0 pre /\ dump blocks rest.
Proof.
  induction ls as [|l ls (pre & blocks & rest & c0 & E & P & D)]; [exists [], [], [], []; repeat split; constructor|]. subst ls.
  destruct (in_dec ascii_dec hash l) as [H|H].
  - apply in_split in H. assert (exists b a, l = b ++ hash :: a /\ ~ In hash b) as (b & a & El & Nb). { destruct (find [hash] l) as [(x, r)|] eqn:F; [apply find_first in F; now exists x, r|]. destruct H as (u & v & ->). destruct (find_complete [hash] u v) as (x & r & F'). change (u ++ hash :: v) with (u ++ [hash] ++ v) in F. congruence. }
    destruct b as [|b0 b]; [exists (l :: pre), blocks, rest, c0; repeat split; trivial; apply ml_other; trivial; right; now exists a|].
    destruct (words [] (b0 :: b)) as [|k vs] eqn:W.
    + exists (l :: pre), blocks, rest, (strip a ++ c0). repeat split; trivial. apply ml_more; trivial. exists (b0 :: b), a. repeat split; trivial; [discriminate|now apply words_nil].
    + exists [], ((k, join [sp] vs, strip a ++ c0) :: blocks), (l :: pre ++ rest), []. repeat split; [constructor|]. constructor; trivial. exists (b0 :: b), a, vs. auto.
  - exists (l :: pre), blocks, rest, c0. repeat split; trivial. apply ml_other; trivial. now left.
Qed.
(** the last option is lost *)
Theorem last_option_refuted conf parm pre blocks k v c ls c0 : split_on nl conf = pre ++ ls -> more_lines c0 pre -> dump (blocks ++ [(k, v, c)]) ls -> NoDup (map key_of (blocks ++ [(k, v, c)])) -> has k (defaultopts (getSexDefaults conf parm)) = false.
Proof.
  intros S P D ND. destruct (sex_defaults conf parm pre _ ls c0 S P D ND) as (_ & _ & H). rewrite removelast_last in H. destruct (H k) as (E & _); [|unfold has; now rewrite E]. rewrite map_app in ND. cbn [map key_of fst] in ND. apply NoDup_remove_2 in ND. now rewrite app_nil_r in ND.
Qed.
(** and a configuration file that sets an unknown option is refused *)
Theorem unknown_option i fs file parfile t pre l post k w r o : file <> [] -> assoc file fs = Some t -> file_lines t = pre ++ l :: post -> read_options pre (defaultopts i) = Ok o -> words [] (cut l) = k :: w :: r -> has k o = false -> new_sex i fs file parfile = Raise ValueError.
Proof.
  intros N A Fl Rp W H. unfold new_sex. destruct file as [|f0 fr] eqn:Ef; [congruence|]. rewrite <- Ef in *. unfold open_. rewrite A. cbn [bindr]. rewrite Fl. assert (E : read_options (pre ++ l :: post) (defaultopts i) = Raise ValueError); [|now rewrite E].
  clear - Rp W H. revert Rp. generalize (defaultopts i). induction pre as [|p pre I]; intros d Rp; cbn [app read_options] in *.
  - injection Rp as ->. rewrite W, H. reflexivity.
  - destruct (words [] (cut p)) as [|k' [|w' r']]; try (now apply I). destruct (has k' d); [now apply I|discriminate].
Qed.
(** ** Parameters *)
Definition parm_of (nm info unit l : str) : Prop := exists ws, ~ In hash nm /\ info = join [sp] ws /\
  ((unit <> [] /\ ~ In "["%char unit /\ ~ In "]"%char unit /\ words [] l = (hash :: nm) :: ws ++ ["["%char :: unit ++ ["]"%char]]) \/ (unit = [] /\ ws <> [] /\ ~ In "["%char (last ws []) /\ words [] l = (hash :: nm) :: ws)).
Lemma without_no c s : ~ In c s -> without c s = s.
Proof. unfold without. induction s as [|a s I]; intros N; cbn [filter]; trivial. destruct (a =a c) eqn:E; [apply ascii_eqb_spec in E; exfalso; apply N; now left|]. cbn [negb]. f_equal. apply I. intros X. apply N. now right. Qed.
Lemma parm_step st nm info unit l : parm_of nm info unit l -> parm_line st l = (put nm (info, unit) (fst st), snd st ++ [nm]).
Proof.
  intros (ws & Nh & -> & [(Nu & Nl & Nr & W)|(-> & Nw & Nl & W)]); unfold parm_line; rewrite W.
  - assert (Wn : without hash (hash :: nm) = nm) by (unfold without; cbn [filter]; change (hash =a hash) with true; cbn [negb]; now apply without_no). rewrite Wn. set (u := "["%char :: unit ++ ["]"%char]).
    assert (U : without "]"%char (without "["%char u) = unit). { unfold u, without. cbn [filter]. change ("["%char =a "["%char) with true. cbn [negb]. rewrite filter_app. cbn [filter]. change ("]"%char =a "["%char) with false. cbn [negb]. fold (without "["%char unit). rewrite without_no by exact Nl. rewrite filter_app. fold (without "]"%char unit). rewrite without_no by exact Nr. cbn [filter]. change ("]"%char =a "]"%char) with true. cbn [negb]. apply app_nil_r. }
    assert (X : existsb (fun a => a =a "["%char) u = true) by reflexivity. clearbody u. destruct ws as [|w1 ws]; cbn [app].
    + cbn [last]. rewrite X, U. destruct unit; [congruence|]. reflexivity.
    + replace (last (w1 :: ws ++ [u]) w1) with u by (symmetry; apply (last_last (w1 :: ws) u w1)). rewrite X, U. change (w1 :: ws ++ [u]) with ((w1 :: ws) ++ [u]). rewrite removelast_last. destruct unit; [congruence|]. reflexivity.
  - assert (Wn : without hash (hash :: nm) = nm) by (unfold without; cbn [filter]; change (hash =a hash) with true; cbn [negb]; now apply without_no). rewrite Wn. destruct ws as [|w1 ws]; [congruence|].
    assert (X : existsb (fun a => a =a "["%char) (last (w1 :: ws) w1) = false). { destruct (existsb _ _) eqn:E; trivial. exfalso. apply existsb_exists in E. destruct E as (a & A & Ea). apply ascii_eqb_spec in Ea. subst a. apply Nl. assert (G : forall (q : list str) d d', q <> [] -> last q d = last q d') by (induction q as [|h q I]; [congruence|]; intros d d' _; destruct q; [reflexivity|]; apply I; discriminate). rewrite (G (w1 :: ws) [] w1) by discriminate. exact A. }
    rewrite X. reflexivity.
Qed.
(** sex -dp: a line for each parameter, "#NAME description [unit]"; the last line of the output is empty *)
Theorem sex_params conf parm ps ls : split_on nl parm = ls ++ [[]] -> Forall2 (fun p l => parm_of (fst (fst p)) (snd (fst p)) (snd p) l) ps ls -> NoDup (map key_of ps) ->
  let i := getSexDefaults conf parm in parorder i = map key_of ps /\ forall nm info unit, In (nm, info, unit) ps -> assoc nm (parinfo i) = Some (info, unit).
Proof.
  intros S F ND i. unfold i, getSexDefaults. cbn [parorder parinfo]. unfold read_parm. rewrite S, fold_left_app. cbn [fold_left]. assert (Z : forall st, parm_line st [] = st) by reflexivity. rewrite Z.
  assert (G : forall st, fold_left parm_line ls st = (fold_left (fun d x => put (key_of x) (snd (fst x), snd x) d) ps (fst st), snd st ++ map key_of ps)).
  { clear - F. induction F as [|p l ps ls H F I]; intros st; cbn [fold_left map]; [destruct st; cbn; now rewrite app_nil_r|]. rewrite (parm_step st _ _ _ l H), I. cbn [fst snd]. f_equal. now rewrite <- app_assoc. }
  rewrite G. cbn [fst snd app]. split; [reflexivity|]. intros nm info unit H. destruct (puts_assoc (fun x => (snd (fst x), snd x)) ps ND []) as (A & _). exact (A (nm, info, unit) H).
Qed.
(** ** Saving and loading *)
Lemma file_lines_line l r : ~ In nl l -> l <> [] -> file_lines (l ++ nl :: r) = (l ++ [nl]) :: file_lines r.
Proof.
  induction l as [|a l I]; intros N X; [congruence|]. clear X. cbn [app file_lines]. destruct (a =a nl) eqn:E; [apply ascii_eqb_spec in E; exfalso; apply N; left; congruence|].
  destruct l as [|b l]; [cbn [app file_lines]; change (nl =a nl) with true; reflexivity|]. rewrite I; [reflexivity|intros X; apply N; now right|discriminate].
Qed.
Lemma file_lines_last l : ~ In nl l -> l <> [] -> file_lines l = [l].
Proof.
  induction l as [|a l I]; intros N X; [congruence|]. clear X. cbn [file_lines]. destruct (a =a nl) eqn:E; [apply ascii_eqb_spec in E; exfalso; apply N; left; congruence|].
  destruct l as [|b l]; [reflexivity|]. rewrite I; [reflexivity|intros X; apply N; now right|discriminate].
Qed.
Lemma file_lines_join ls : Forall (fun l => ~ In nl l /\ l <> []) ls -> Forall2 (fun l fl => fl = l \/ fl = l ++ [nl]) ls (file_lines (join [nl] ls)).
Proof.
  induction ls as [|l ls I]; intros F; [constructor|]. inversion F as [|? ? (Nl & Ne) Fr]; subst. destruct ls as [|l' ls]; [cbn [join]; rewrite file_lines_last by trivial; constructor; [now left|constructor]|].
  change (join [nl] (l :: l' :: ls)) with (l ++ nl :: join [nl] (l' :: ls)). rewrite file_lines_line by trivial. constructor; [now right|now apply I].
Qed.
Lemma all_get_ok {A B} (f : A -> @res (list B)) (h : A -> list B) l : (forall a, In a l -> f a = Ok (h a)) -> all_get f l = Ok (List.concat (map h l)).
Proof. induction l as [|a l I]; intros H; cbn [all_get map List.concat]; [reflexivity|]. rewrite H by now left. cbn [bindr]. rewrite I by (intros; apply H; now right). reflexivity. Qed.
Lemma concat_one {A B} (g : A -> B) l : List.concat (map (fun a => [g a]) l) = map g l.
Proof. induction l as [|a l I]; cbn; [reflexivity|now rewrite I]. Qed.
Lemma concat_if {A B} (b : A -> bool) (g : A -> B) l : List.concat (map (fun a => if b a then [g a] else []) l) = map g (filter b l).
Proof. induction l as [|a l I]; cbn; [reflexivity|]. rewrite I. now destruct (b a). Qed.
Definition first_word (v d : str) : str := match words [] v with w :: _ => w | [] => d end.
Definition set_first (d : list (str * str)) (x : str * str) := match words [] (snd x) with w :: _ => put (fst x) w d | [] => d end.
Lemma read_options_saved os fls : Forall2 (fun x fl => words [] (cut fl) = fst x :: words [] (snd x)) os fls -> forall d, (forall x, In x os -> has (fst x) d = true) -> read_options fls d = Ok (fold_left set_first os d).
Proof.
  intros F. induction F as [|x fl os fls H F I]; intros d Hd; [reflexivity|]. cbn [read_options fold_left]. rewrite H. unfold set_first at 2. destruct (words [] (snd x)) as [|w ws].
  - apply I. intros y Y. apply Hd. now right.
  - rewrite (Hd x) by now left. apply I. intros y Y. rewrite has_put. rewrite (Hd y) by now right. apply orb_true_r.
Qed.
Lemma set_first_other os : forall d k, ~ In k (map fst os) -> assoc k (fold_left set_first os d) = assoc k d.
Proof.
  induction os as [|x os I]; intros d k N; cbn [fold_left]; [reflexivity|]. rewrite I by (intros X; apply N; now right). unfold set_first. destruct (words [] (snd x)); trivial. apply assoc_put_other. intros ->. apply N. now left.
Qed.
Lemma set_first_assoc os : NoDup (map fst os) -> forall d x, In x os -> assoc (fst x) (fold_left set_first os d) = match words [] (snd x) with w :: _ => Some w | [] => assoc (fst x) d end.
Proof.
  induction os as [|y os I]; intros ND d x H; [contradiction|]. cbn [map] in ND. inversion ND as [|? ? Ny No]; subst. cbn [fold_left]. destruct H as [->|H].
  - rewrite set_first_other by exact Ny. unfold set_first. destruct (words [] (snd x)); trivial. apply assoc_put_same.
  - rewrite I by trivial. destruct (words [] (snd x)); trivial. unfold set_first. destruct (words [] (snd y)); trivial. apply assoc_put_other. intros E. apply Ny. rewrite <- E. now apply in_map.
Qed.
Lemma sp_space : space sp /\ space tab /\ space nl. Proof. repeat split; reflexivity. Qed.
Lemma cut_hash b a : ~ In hash b -> cut (b ++ hash :: a) = b.
Proof. intros N. unfold cut. now rewrite find_here. Qed.
Lemma saved_option o v c fl : word o -> ~ In hash o -> ~ In hash v -> (fl = o ++ [tab] ++ v ++ [tab; sp; hash; sp] ++ c \/ fl = (o ++ [tab] ++ v ++ [tab; sp; hash; sp] ++ c) ++ [nl]) -> words [] (cut fl) = o :: words [] v.
Proof.
  intros W No Nv H. assert (E : exists a, fl = (o ++ tab :: v ++ [tab; sp]) ++ hash :: a). { destruct H as [->| ->]; eexists; repeat (rewrite <- app_assoc || cbn [app]); reflexivity. }
  destruct E as (a & ->). rewrite cut_hash. 2:{ intros X. apply in_app_iff in X. destruct X as [X|[X|X]]; [auto|discriminate|]. apply in_app_iff in X. destruct X as [X|[X|[X|[]]]]; [auto|discriminate|discriminate]. }
  rewrite words_cons by (trivial; reflexivity). f_equal. apply words_app_spaces. repeat constructor.
Qed.
(** reading back the chosen parameters *)
Lemma read_params_saved ps fls : Forall2 (fun p fl => exists r, fl = p ++ tab :: r) ps fls -> (forall p, In p ps -> word p /\ hd sp p <> hash) -> forall d, (forall p, In p ps -> has p d = true) -> read_params fls d = Ok (fold_left (fun d p => put p true d) ps d).
Proof.
  intros F. induction F as [|p fl ps fls (r & ->) F I]; intros W d Hd; [reflexivity|]. cbn [read_params fold_left]. destruct (W p (or_introl eq_refl)) as ((Np & Fp) & Nh).
  assert (E : exists a t, strip (p ++ tab :: r) = a :: t /\ a = hd sp p). { destruct p as [|a p]; [congruence|]. inversion Fp as [|? ? Fa _]; subst. cbn [app hd]. unfold strip, lstrip. assert (Es : snd (span is_space (a :: p ++ tab :: r)) = a :: p ++ tab :: r). { cbn [span]. destruct (is_space a) eqn:Ea; [contradiction|reflexivity]. } rewrite Es. unfold rstrip. exists a. destruct (span is_space (rev (a :: p ++ tab :: r))) as (x, y) eqn:Ex. apply span_spec in Ex. destruct Ex as (Ex & Fx & _). cbn [snd]. assert (Er : a :: p ++ tab :: r = rev y ++ rev x) by (rewrite <- rev_app_distr, <- Ex; now rewrite rev_involutive). destruct (rev y) as [|b t] eqn:Ey; [|cbn [app] in Er; injection Er as -> _; now exists t]. exfalso. cbn [app] in Er. apply Fa. rewrite Forall_forall in Fx. apply (Fx a). apply in_rev. rewrite <- Er. now left. }
  destruct E as (a & t & E & Ea). rewrite E. destruct (a =a hash) eqn:Eh; [apply ascii_eqb_spec in Eh; congruence|]. rewrite words_cons by (try reflexivity; split; trivial). rewrite (Hd p) by now left. apply I; [intros q Q; apply W; now right|]. intros q Q. rewrite has_put, (Hd q) by now right. apply orb_true_r.
Qed.
Lemma puts_bool (ps : list str) (b : bool) : forall (d : list (str * bool)) p, assoc p (fold_left (fun d p => put p b d) ps d) = if existsb (str_eqb p) ps then Some b else assoc p d.
Proof.
  induction ps as [|q ps I]; intros d p; cbn [fold_left existsb]; [reflexivity|]. rewrite I. destruct (existsb (str_eqb p) ps); [now rewrite orb_true_r|]. rewrite orb_false_r. apply assoc_put.
Qed.
Lemma has_some {A} k (d : list (str * A)) : has k d = true -> exists v, assoc k d = Some v.
Proof. unfold has. destruct (assoc k d) as [v|]; [intros _; now exists v|discriminate]. Qed.
Lemma some_has {A} k (d : list (str * A)) v : assoc k d = Some v -> has k d = true.
Proof. unfold has. now intros ->. Qed.
Lemma puts_bool_fst {A} (l : list (str * A)) : forall (d : list (str * bool)) p, assoc p (fold_left (fun d x => put (fst x) false d) l d) = if has p l then Some false else assoc p d.
Proof.
  induction l as [|(q, x) l I]; intros d p; cbn [fold_left fst]; [reflexivity|]. rewrite I. unfold has. cbn [assoc]. destruct (assoc p l) eqn:E; [now destruct (str_eqb p q)|]. rewrite assoc_put. now destruct (str_eqb p q).
Qed.
Lemma puts_known (l : list str) : forall (d : list (str * bool)) p, assoc p (fold_left (fun d p => if has p d then put p true d else d) l d) = if existsb (str_eqb p) l && has p d then Some true else assoc p d.
Proof.
  induction l as [|q l I]; intros d p; cbn [fold_left existsb]; [reflexivity|]. rewrite I. destruct (has q d) eqn:Hq.
  - rewrite has_put. destruct (str_eqb p q) eqn:E.
    + apply eqs in E. subst q. rewrite Hq. cbn [orb andb]. rewrite andb_true_r. destruct (existsb (str_eqb p) l); [reflexivity|]. apply assoc_put_same.
    + cbn [orb]. destruct (existsb (str_eqb p) l && has p d); trivial. rewrite assoc_put, E. reflexivity.
  - destruct (str_eqb p q) eqn:E; [|reflexivity]. apply eqs in E. subst q. rewrite Hq, !andb_false_r. reflexivity.
Qed.
(** the information of SExtractor and the texts of an object that can be kept in its files *)
Definition PN : str := L "PARAMETERS_NAME".
Record wf_info (i : sexinfo) : Prop := {
  wf_nodup : NoDup (optorder i);
  wf_opt : forall o, In o (optorder i) -> word o /\ ~ In hash o /\ has o (defaultopts i) = true /\ exists c, assoc o (optinfo i) = Some c /\ ~ In nl c;
  wf_pn : In (L "PARAMETERS_NAME") (optorder i);
  wf_par : forall p, In p (parorder i) -> word p /\ hd sp p <> hash /\ has p (parinfo i) = true }.
Definition savable (i : sexinfo) (s : sex) : Prop := (forall o, In o (optorder i) -> exists v, assoc o (options s) = Some v /\ ~ In nl v /\ ~ In hash v) /\ (forall p, In p (parorder i) -> has p (params s) = true).
Definition plain_name (base : str) : Prop := word base /\ ~ In hash base /\ ~ In slash base /\ ~ sub (L ".sex") base /\ base <> L "default".
Lemma remove_no fuel p s : ~ sub p s -> p <> [] -> remove_all fuel p s = s.
Proof.
  revert s. induction fuel as [|f I]; intros s N Np; [reflexivity|]. destruct s as [|a s]; [reflexivity|]. cbn [remove_all]. destruct (drop p (a :: s)) as [r|] eqn:E.
  - apply PubProps.drop_spec in E. exfalso. apply N. exists [], r. exact E.
  - f_equal. apply I; trivial. intros (x & y & E'). apply N. exists (a :: x), y. rewrite E'. reflexivity.
Qed.
Lemma remove_sex base : forall fuel, ~ sub (L ".sex") base -> (List.length base < fuel)%nat -> remove_all fuel (L ".sex") (base ++ L ".sex") = base.
Proof.
  induction base as [|a b I]; intros fuel N Lf; (destruct fuel as [|f]; [cbn [List.length] in Lf; lia|]).
  - cbn [app remove_all]. change (L ".sex") with [".";"s";"e";"x"]%char. cbn [remove_all drop]. destruct f; reflexivity.
  - cbn [app remove_all]. destruct (drop (L ".sex") (a :: b ++ L ".sex")) as [r|] eqn:E.
    + apply PubProps.drop_spec in E. exfalso. change (L ".sex") with [".";"s";"e";"x"]%char in *. cbn [app] in E.
      destruct b as [|b1 [|b2 [|b3 b]]]; cbn [app] in E; try (injection E; intros; discriminate).
      injection E as -> -> -> -> _. apply N. exists [], b. reflexivity.
    + f_equal. apply I; [|cbn [List.length] in Lf; lia]. intros (x & y & E'). apply N. exists (a :: x), y. rewrite E'. reflexivity.
Qed.
Lemma no_head base : ~ In slash base -> head_of base = [].
Proof. intros N. unfold head_of. rewrite rfind_none; trivial. intros (x & y & E). apply N. rewrite E. apply in_app_iff. right. now left. Qed.
Lemma word_no_nl w : word w -> ~ In nl w.
Proof. intros (_ & F) X. rewrite Forall_forall in F. apply (F nl X). reflexivity. Qed.
Theorem saved_loads shown i fs s base : wf_info i -> (forall c, ~ In nl (shown c)) -> savable i s -> plain_name base ->
  exists fs' s' s2, saveFiles shown i fs s base = (fs', s', Ok tt) /\ new_sex i fs' (base ++ L ".sex") None = Ok s2 /\
  (forall f, f <> base ++ L ".sex" -> f <> base ++ L ".param" -> assoc f fs' = assoc f fs) /\
  name s2 = base /\ assoc (L "PARAMETERS_NAME") (options s2) = Some (base ++ L ".param") /\
  (forall o v, In o (optorder i) -> o <> L "PARAMETERS_NAME" -> assoc o (options s) = Some v -> assoc o (options s2) = match words [] v with w :: _ => Some w | [] => assoc o (defaultopts i) end) /\
  ((exists p, In p (parorder i) /\ assoc p (params s) = Some true) -> forall p, In p (parorder i) -> assoc p (params s2) = assoc p (params s)) /\
  ((forall p, In p (parorder i) -> assoc p (params s) = Some false) -> forall p, In p (parorder i) -> assoc p (params s2) = Some (existsb (str_eqb p) (map L ["NUMBER"; "FLUX_ISO"; "FLUXERR_ISO"; "FLUX_AUTO"; "FLUXERR_AUTO"; "X_IMAGE"; "Y_IMAGE"; "FLAGS"]%string))).
Proof.
  intros Wi Wc (So & Sp) (Wb & Nh & Nsl & Nsx & Nd). unfold saveFiles, no_sex. rewrite remove_no by (trivial; discriminate). rewrite no_head by exact Nsl. cbn [app]. fold PN.
  set (pf := base ++ L ".param"). set (opts' := put PN pf (options s)).
  assert (Wpf : word pf). { destruct Wb as (Nb & Fb). split; [unfold pf; destruct base; [congruence|discriminate]|]. unfold pf. apply Forall_app. split; [exact Fb|]. repeat constructor; discriminate. }
  assert (Hpf : ~ In hash pf). { unfold pf. intros X. apply in_app_iff in X. destruct X as [X|X]; [auto|]. cbn in X. repeat (destruct X as [X|X]; [discriminate|]). exact X. }
  assert (So' : forall o, In o (optorder i) -> exists v, assoc o opts' = Some v /\ ~ In nl v /\ ~ In hash v).
  { intros o O. unfold opts'. rewrite assoc_put. destruct (str_eqb o PN); [exists pf; split; [reflexivity|]; split; [now apply word_no_nl|exact Hpf]|now apply So]. }
  set (val := fun o => match assoc o opts' with Some v => v | None => [] end). set (com := fun o => match assoc o (optinfo i) with Some v => v | None => [] end).
  set (oline := fun o => o ++ [tab] ++ val o ++ [tab; sp; hash; sp] ++ com o).
  assert (Eo : makeOptionStr i (Sex (name s) opts' (params s) (overwrite s)) = Ok (join [nl] (map oline (optorder i)))).
  { unfold makeOptionStr. cbn [options]. rewrite all_get_ok with (h := fun o => [oline o]).
    - cbn [bindr]. now rewrite concat_one.
    - intros o O. destruct (So' o O) as (v & E & _). destruct (wf_opt i Wi o O) as (_ & _ & _ & c & Ec & _). rewrite E, Ec. unfold oline, val, com. now rewrite E, Ec. }
  set (sel := fun p => match assoc p (params s) with Some b => b | None => false end). set (pinf := fun p => match assoc p (parinfo i) with Some c => c | None => ([], []) end).
  set (pline := fun p => p ++ [tab; sp; hash; sp] ++ shown (pinf p)).
  assert (Ep : makeParamStr shown i (Sex (name s) opts' (params s) (overwrite s)) = Ok (join [nl] (map pline (filter sel (parorder i))))).
  { unfold makeParamStr. cbn [params]. rewrite all_get_ok with (h := fun p => if sel p then [pline p] else []).
    - cbn [bindr]. now rewrite concat_if.
    - intros p P. destruct (has_some _ _ (Sp p P)) as (b & E). destruct (wf_par i Wi p P) as (_ & _ & H). destruct (has_some _ _ H) as (c & Ec). unfold sel. rewrite E, Ec. destruct b; [|reflexivity]. unfold pline, pinf. now rewrite Ec. }
  unfold oline, val, com in Eo. rewrite Eo. fold (val) in Eo. rewrite Ep.
  set (fs' := put pf _ (put (base ++ L ".sex") _ fs)). exists fs', (Sex (name s) opts' (params s) (overwrite s)).
  assert (Nps : base ++ L ".sex" <> pf). { unfold pf. intros X. apply app_inv_head in X. discriminate. }
  assert (Fs : assoc (base ++ L ".sex") fs' = Some (join [nl] (map oline (optorder i)))) by (unfold fs'; rewrite assoc_put_other by exact Nps; apply assoc_put_same).
  assert (Fp : assoc pf fs' = Some (join [nl] (map pline (filter sel (parorder i))))) by (unfold fs'; apply assoc_put_same).
  assert (Fo : forall f, f <> base ++ L ".sex" -> f <> pf -> assoc f fs' = assoc f fs) by (intros f A B; unfold fs'; rewrite assoc_put_other by exact B; now apply assoc_put_other).
  assert (Ro : read_options (file_lines (join [nl] (map oline (optorder i)))) (defaultopts i) = Ok (fold_left set_first (map (fun o => (o, val o)) (optorder i)) (defaultopts i))).
  { apply read_options_saved.
    - assert (F := file_lines_join (map oline (optorder i))). assert (Ff : Forall (fun l => ~ In nl l /\ l <> []) (map oline (optorder i))).
      { apply Forall_forall. intros l X. apply in_map_iff in X. destruct X as (o & <- & O). destruct (wf_opt i Wi o O) as (Wo & _ & _ & c & Ec & Nc). destruct (So' o O) as (v & Ev & Nv & _). unfold oline, val, com. rewrite Ev, Ec. split.
        - intros X. apply in_app_iff in X. destruct X as [X|X]; [now apply (word_no_nl o Wo)|]. cbn [app] in X. destruct X as [X|X]; [discriminate|]. apply in_app_iff in X. destruct X as [X|X]; [auto|]. repeat (destruct X as [X|X]; [discriminate|]). auto.
        - destruct Wo as (No & _). destruct o; [congruence|discriminate]. }
      specialize (F Ff). clear Ff. revert F. generalize (file_lines (join [nl] (map oline (optorder i)))). assert (H : forall o, In o (optorder i) -> In o (optorder i)) by auto. revert H. generalize (optorder i) at 1 3 4. intros os H fls F. revert H. remember (map oline os) as ls eqn:El. revert os El. induction F as [|l fl ls fls X F I]; intros os El H; (destruct os as [|o os]; cbn [map] in *; try discriminate; constructor).
      + injection El as El1 El2. cbn [fst snd]. subst l. destruct (wf_opt i Wi o (H o (or_introl eq_refl))) as (Wo & Nho & _). destruct (So' o (H o (or_introl eq_refl))) as (v & Ev & _ & Nv). apply (saved_option o (val o) (com o) fl); trivial. unfold val. now rewrite Ev.
      + injection El as El1 El2. apply I; trivial. intros q Q. apply H. now right.
    - intros x X. apply in_map_iff in X. destruct X as (o & <- & O). apply (wf_opt i Wi o O). }
  set (o2 := fold_left set_first (map (fun o => (o, val o)) (optorder i)) (defaultopts i)) in *.
  assert (Ao : forall o, In o (optorder i) -> assoc o o2 = match words [] (val o) with w :: _ => Some w | [] => assoc o (defaultopts i) end).
  { intros o O. apply (set_first_assoc (map (fun o => (o, val o)) (optorder i))) with (x := (o, val o)); [rewrite map_map; cbn [fst]; rewrite map_id; apply (wf_nodup i Wi)|]. apply in_map_iff. now exists o. }
  assert (Apn : assoc PN o2 = Some pf). { rewrite Ao by apply (wf_pn i Wi). unfold val, opts'. rewrite assoc_put_same. now rewrite words_one. }
  set (pars := fold_left (fun d p => put (fst p) false d) (parinfo i) (@nil (str * bool))).
  assert (Hpars : forall p, In p (parorder i) -> assoc p pars = Some false). { intros p P. unfold pars. rewrite puts_bool_fst. destruct (wf_par i Wi p P) as (_ & _ & H). now rewrite H. }
  assert (Rp : read_params (file_lines (join [nl] (map pline (filter sel (parorder i))))) pars = Ok (fold_left (fun d p => put p true d) (filter sel (parorder i)) pars)).
  { apply read_params_saved.
    - assert (F := file_lines_join (map pline (filter sel (parorder i)))). assert (Ff : Forall (fun l => ~ In nl l /\ l <> []) (map pline (filter sel (parorder i)))).
      { apply Forall_forall. intros l X. apply in_map_iff in X. destruct X as (p & <- & P). apply filter_In in P. destruct P as (P & _). destruct (wf_par i Wi p P) as (Wp & _ & _). unfold pline. split.
        - intros X. apply in_app_iff in X. destruct X as [X|X]; [now apply (word_no_nl p Wp)|]. cbn [app] in X. repeat (destruct X as [X|X]; [discriminate|]). now apply (Wc (pinf p)).
        - destruct Wp as (Np & _). destruct p; [congruence|discriminate]. }
      specialize (F Ff). clear Ff. revert F. generalize (file_lines (join [nl] (map pline (filter sel (parorder i))))). generalize (filter sel (parorder i)). intros ps fls F. remember (map pline ps) as ls eqn:El. revert ps El. induction F as [|l fl ls fls X F I]; intros ps El; (destruct ps as [|p ps]; cbn [map] in *; try discriminate; constructor).
      + injection El as El1 El2. subst l. unfold pline in X. destruct X as [->| ->]; eexists; repeat (rewrite <- app_assoc || cbn [app]); reflexivity.
      + injection El as El1 El2. now apply I.
    - intros p P. apply filter_In in P. destruct P as (P & _). destruct (wf_par i Wi p P) as (A & B & _). now split.
    - intros p P. apply filter_In in P. destruct P as (P & _). apply (some_has _ _ _ (Hpars p P)). }
  set (p2 := fold_left (fun d p => put p true d) (filter sel (parorder i)) pars) in *.
  assert (Ap : forall p, In p (parorder i) -> assoc p p2 = Some (sel p)).
  { intros p P. unfold p2. rewrite puts_bool. destruct (existsb (str_eqb p) (filter sel (parorder i))) eqn:E.
    - apply in_existsb in E. apply filter_In in E. now rewrite (proj2 E).
    - destruct (sel p) eqn:Es; [|now apply Hpars]. exfalso. assert (X : existsb (str_eqb p) (filter sel (parorder i)) = true); [|congruence]. apply in_existsb. apply filter_In. now split. }
  set (p3 := if existsb snd p2 then p2 else fold_left (fun d p => if has p d then put p true d else d) defs286 p2).
  exists (Sex base o2 p3 false). split; [reflexivity|]. clearbody fs'. split.
  { unfold new_sex. destruct (base ++ L ".sex") as [|c0 cr] eqn:Eb; [destruct base; discriminate|]. rewrite <- Eb in *. unfold open_. rewrite Fs. cbn [bindr]. rewrite Ro. cbn [bindr]. unfold no_sex. rewrite remove_sex; [|exact Nsx|rewrite app_length; cbn; lia]. fold PN. rewrite Apn. cbn [bindr]. rewrite eqb_neq.
    - rewrite Fp. cbn [bindr]. fold pars. rewrite Rp. cbn [bindr]. reflexivity.
    - unfold pf. intros X. apply Nd. apply (app_inv_tail (L ".param")). rewrite X. reflexivity. }
  split; [exact Fo|]. split; [reflexivity|]. split; [exact Apn|]. split; [|split].
  - intros o v O No Ev. cbn [options]. rewrite Ao by exact O. unfold val, opts'. rewrite assoc_put_other by exact No. now rewrite Ev.
  - intros (q & Q & Eq) p P. cbn [params]. assert (X : existsb snd p2 = true). { apply existsb_exists. exists (q, true). split; [|reflexivity]. apply assoc_in. rewrite Ap by exact Q. unfold sel. now rewrite Eq. }
    unfold p3. rewrite X. rewrite Ap by exact P. unfold sel. destruct (has_some _ _ (Sp p P)) as (b & E). now rewrite E.
  - intros H p P. cbn [params]. assert (Ef : filter sel (parorder i) = []). { assert (G : forall l : list str, (forall x, In x l -> sel x = false) -> filter sel l = []) by (induction l as [|x l I]; intros K; cbn [filter]; [reflexivity|]; rewrite K by (now left); apply I; intros; apply K; now right). apply G. intros x X. unfold sel. now rewrite H. }
    assert (E2 : p2 = pars) by (unfold p2; now rewrite Ef). unfold p3. rewrite E2. assert (X : existsb snd pars = false). { destruct (existsb snd pars) eqn:X; trivial. exfalso. unfold pars in X. clear - X. assert (G : forall (l : list (str * (str * str))) d, existsb snd d = false -> existsb snd (fold_left (fun d p => put (fst p) false d) l d) = false). { induction l as [|x l I]; intros d Hd; cbn [fold_left]; trivial. apply I. clear - Hd. induction d as [|(k, b) d I]; [reflexivity|]. cbn [existsb snd] in Hd. apply orb_false_iff in Hd. destruct Hd as (Hb & Hd). cbn [put]. destruct (str_eqb (fst x) k); cbn [existsb snd]; [exact Hd|]. now rewrite Hb, I. } rewrite G in X; [discriminate|reflexivity]. }
    rewrite X, puts_known. rewrite (Hpars p P), (some_has _ _ _ (Hpars p P)), andb_true_r. fold defs286. now destruct (existsb (str_eqb p) defs286).
Qed.
(** values of one word come back as they were *)
Theorem saved_exact shown i fs s base : wf_info i -> (forall c, ~ In nl (shown c)) -> savable i s -> plain_name base -> (forall o v, In o (optorder i) -> assoc o (options s) = Some v -> word v) -> (exists p, In p (parorder i) /\ assoc p (params s) = Some true) ->
  exists fs' s' s2, saveFiles shown i fs s base = (fs', s', Ok tt) /\ new_sex i fs' (base ++ L ".sex") None = Ok s2 /\ name s2 = base /\
  (forall o, In o (optorder i) -> o <> L "PARAMETERS_NAME" -> assoc o (options s2) = assoc o (options s)) /\ (forall p, In p (parorder i) -> assoc p (params s2) = assoc p (params s)) /\ getParamList i s2 = getParamList i s.
Proof.
  intros Wi Wc S P W X. destruct (saved_loads shown i fs s base Wi Wc S P) as (fs' & s' & s2 & E1 & E2 & _ & E3 & _ & H & K & _). exists fs', s', s2. split; [exact E1|]. split; [exact E2|]. split; [exact E3|]. split; [|split; [now apply K|]].
  - intros o O N. destruct (proj1 S o O) as (v & Ev & _). rewrite (H o v O N Ev), Ev. rewrite words_one; [reflexivity|now apply (W o v)].
  - specialize (K X). unfold getParamList. clear - K. assert (G : forall l : list str, (forall p, In p l -> In p (parorder i)) -> all_get (fun k => match assoc k (params s2) with Some true => Ok [k] | Some false => Ok [] | None => Raise KeyError end) l = all_get (fun k => match assoc k (params s) with Some true => Ok [k] | Some false => Ok [] | None => Raise KeyError end) l); [|apply G; auto]. induction l as [|p l I]; intros H; cbn [all_get]; [reflexivity|]. rewrite (K p) by (apply H; now left). rewrite I by (intros; apply H; now right). reflexivity.
Qed.
(** ** The next name *)
Definition dash : ascii := "-"%char.
Lemma split_app (c : ascii) (x w : str) : ~ In c w -> split_on c (x ++ c :: w) = split_on c x ++ [w].
Proof.
  intros N. induction x as [|a x I]; cbn [app split_on].
  - rewrite (proj2 (ascii_eqb_spec c c) eq_refl). now rewrite split_no.
  - destruct (a =a c); [now rewrite I|]. rewrite I. destruct (split_on c x) as [|y l] eqn:E; [|reflexivity]. destruct (split_on_join c x) as (_ & K). congruence.
Qed.
Lemma join_app sep l x : l <> [] -> join sep (l ++ [x]) = join sep l ++ sep ++ x.
Proof.
  induction l as [|a l I]; intros N; [congruence|]. destruct l as [|b l]; [reflexivity|]. cbn [app]. change (join sep (a :: b :: l ++ [x])) with (a ++ sep ++ join sep ((b :: l) ++ [x])). rewrite I by discriminate. change (join sep (a :: b :: l)) with (a ++ sep ++ join sep (b :: l)). now rewrite !app_assoc.
Qed.
Lemma split_last (c : ascii) (n : str) : In c n -> exists x w, n = x ++ c :: w /\ ~ In c w.
Proof.
  induction n as [|a n I]; intros H; [contradiction|]. destruct (in_dec ascii_dec c n) as [K|K]; [destruct (I K) as (x & w & -> & N); exists (a :: x), w; now split|]. destruct H as [->|H]; [|contradiction]. exists [], n. now split.
Qed.
Definition number_after (w : str) : nat := match py_int w with Ok i => Z.to_nat (i + 1) | _ => 2 end.
Lemma next_plain n : ~ In dash n -> next_name n = n ++ dash :: decimal (number_after n).
Proof. intros N. unfold next_name, number_after. fold dash. rewrite (split_no dash n N). cbn [last app join]. destruct (py_int n); reflexivity. Qed.
Lemma next_dash x w : ~ In dash w -> next_name (x ++ dash :: w) = x ++ dash :: decimal (number_after w).
Proof.
  intros N. unfold next_name, number_after. fold dash. rewrite (split_app dash x w N), last_last. destruct (split_on_join dash x) as (J & K). destruct (split_on dash x) as [|y l] eqn:E; [congruence|]. cbn [app].
  destruct (l ++ [w]) as [|z q] eqn:Ez; [destruct l; discriminate|]. rewrite <- Ez. change (y :: l ++ [w]) with ((y :: l) ++ [w]). rewrite removelast_last, join_app by discriminate. rewrite J. destruct (py_int w); reflexivity.
Qed.
Theorem next_numbered x k : next_name (x ++ dash :: decimal k) = x ++ dash :: decimal (S k).
Proof.
  rewrite next_dash. 2:{ apply decimal_no'. vm_compute. auto. }
  unfold number_after. rewrite int_decimal. do 3 f_equal. lia.
Qed.
Theorem next_first n e : ~ In dash n -> py_int n = Raise e -> next_name n = n ++ L "-2".
Proof. intros N E. rewrite next_plain by exact N. unfold number_after. now rewrite E. Qed.
(** a name whose last part is no number loses that part *)
Theorem next_part_refuted x w e : ~ In dash w -> py_int w = Raise e -> next_name (x ++ dash :: w) = x ++ L "-2".
Proof. intros N E. rewrite next_dash by exact N. unfold number_after. now rewrite E. Qed.
Lemma strip_in a s : In a (strip s) -> In a s.
Proof.
  unfold strip, lstrip, rstrip. intros H. apply in_rev in H. destruct (span is_space s) as (x, y) eqn:E. apply span_spec in E. destruct E as (-> & _). cbn [snd] in H. destruct (span is_space (rev y)) as (u, v) eqn:E. apply span_spec in E. destruct E as (E & _). cbn [snd] in H. apply in_app_iff. right. apply in_rev. rewrite E. apply in_app_iff. now right.
Qed.
Lemma int_nonneg w i : ~ In dash w -> py_int w = Ok i -> (0 <= i)%Z.
Proof.
  intros N. unfold py_int. destruct (strip w) as [|a r] eqn:E; [destruct (parse_index []) as [n|]; [intros X; assert (i = (1 * Z.of_nat n)%Z) by congruence; lia|discriminate]|]. destruct (a =a "-"%char) eqn:Ea.
  - apply ascii_eqb_spec in Ea. exfalso. apply N. apply strip_in. rewrite E. left. exact Ea.
  - destruct (a =a "+"%char); [destruct (parse_index r) as [n|]|destruct (parse_index (a :: r)) as [n|]]; intros X; try discriminate; assert (i = (1 * Z.of_nat n)%Z) by congruence; lia.
Qed.
Lemma after_new w : ~ In dash w -> decimal (number_after w) <> w.
Proof.
  intros N E. unfold number_after in E. destruct (py_int w) as [i|e|] eqn:P; pose proof P as Q; rewrite <- E, int_decimal in Q; try discriminate. pose proof (int_nonneg w i N P). assert (i = Z.of_nat (Z.to_nat (i + 1))) by congruence. lia.
Qed.
Lemma next_cases n : (~ In dash n /\ next_name n = n ++ dash :: decimal (number_after n)) \/ exists x w, ~ In dash w /\ n = x ++ dash :: w /\ next_name n = x ++ dash :: decimal (number_after w).
Proof. destruct (in_dec ascii_dec dash n) as [H|H]; [right|left; split; [exact H|now apply next_plain]]. destruct (split_last dash n H) as (x & w & -> & N). exists x, w. repeat split; trivial. now apply next_dash. Qed.
(** the next name is another one *)
Theorem next_differs n : next_name n <> n.
Proof.
  destruct (next_cases n) as [(N & E)|(x & w & N & En & E)]; rewrite E.
  - intros X. apply (f_equal (@List.length ascii)) in X. rewrite app_length in X. cbn [List.length] in X. lia.
  - rewrite En. intros X. apply app_inv_head in X. injection X as X. now apply (after_new w N).
Qed.
Lemma no_sub_sep (c : ascii) p x y : ~ In c p -> p <> [] -> ~ sub p x -> ~ sub p y -> ~ sub p (x ++ c :: y).
Proof.
  intros Nc Np Nx Ny (u & v & E). revert u E. induction x as [|a x I]; intros u E.
  - cbn [app] in E. destruct u as [|b u]; [destruct p as [|q p]; [congruence|]; cbn [app] in E; injection E as -> _; apply Nc; now left|]. cbn [app] in E. injection E as _ E. apply Ny. now exists u, v.
  - destruct u as [|b u].
    + cbn [app] in E. clear I. destruct (Nat.le_gt_cases (List.length p) (List.length (a :: x))) as [Hl|Hl].
      * apply Nx. exists [], (skipn (List.length p) (a :: x)). cbn [app]. pose proof (f_equal (firstn (List.length p)) E) as F. change (a :: x ++ c :: y) with ((a :: x) ++ c :: y) in F. rewrite !firstn_app, firstn_all in F. replace (List.length p - List.length (a :: x)) with 0 in F by lia. rewrite Nat.sub_diag in F. cbn [firstn] in F. rewrite !app_nil_r in F. rewrite <- (firstn_skipn (List.length p) (a :: x)) at 1. now rewrite F.
      * apply Nc. pose proof (f_equal (fun l => nth_error l (List.length (a :: x))) E) as F. cbv beta in F. change (a :: x ++ c :: y) with ((a :: x) ++ c :: y) in F. rewrite nth_error_app2, Nat.sub_diag in F by lia. cbn [nth_error] in F. rewrite nth_error_app1 in F by exact Hl. symmetry in F. now apply nth_error_In in F.
    + cbn [app] in E. injection E as _ E. revert E. apply I. intros (s1 & s2 & ->). apply Nx. exists (a :: s1), s2. reflexivity.
Qed.
Lemma decimal_no_sex k : ~ sub (L ".sex") (decimal k).
Proof. intros (u & v & E). apply (decimal_no' "."%char k); [vm_compute; auto|]. rewrite E. apply in_app_iff. right. left. reflexivity. Qed.
Lemma next_no_sex n : ~ sub (L ".sex") n -> ~ sub (L ".sex") (next_name n).
Proof.
  intros N. destruct (next_cases n) as [(_ & ->)|(x & w & _ & En & ->)]; apply no_sub_sep; try discriminate; try apply decimal_no_sex; trivial; try (intros X; cbn in X; repeat (destruct X as [X|X]; [discriminate|]); exact X).
  intros (u & v & ->). apply N. rewrite En. exists u, (v ++ dash :: w). now rewrite <- !app_assoc.
Qed.
Lemma no_sex_id n : ~ sub (L ".sex") n -> no_sex n = n.
Proof. intros N. unfold no_sex. apply remove_no; [exact N|discriminate]. Qed.
Lemma decimal_word k : Forall (fun a => ~ space a) (decimal k).
Proof. pose proof (decimal_go_digits (S k) k) as F. fold (decimal k) in F. apply Forall_forall. intros a A. rewrite Forall_forall in F. apply digit_visible. now apply F. Qed.
Lemma plain_next n : plain_name n -> plain_name (next_name n).
Proof.
  intros ((Ne & Fw) & Nh & Ns & Nx & Nd). assert (E : exists x k, next_name n = x ++ dash :: decimal k /\ (forall a, In a x -> In a n)). { destruct (next_cases n) as [(_ & E)|(x & w & _ & En & E)]; [now exists n, (number_after n)|]. exists x, (number_after w). split; [exact E|]. intros a A. rewrite En. apply in_app_iff. now left. }
  destruct E as (x & k & E & I). rewrite Forall_forall in Fw. split; [|split; [|split; [|split]]].
  - rewrite E. split; [destruct x; discriminate|]. apply Forall_app. split; [apply Forall_forall; auto|]. constructor; [discriminate|apply decimal_word].
  - rewrite E. intros X. apply in_app_iff in X. destruct X as [X|[X|X]]; [auto|discriminate|]. revert X. apply decimal_no'. vm_compute. auto 50.
  - rewrite E. intros X. apply in_app_iff in X. destruct X as [X|[X|X]]; [auto|discriminate|]. revert X. apply decimal_no'. vm_compute. auto 50.
  - now apply next_no_sex.
  - rewrite E. intros X. assert (D : In dash (L "default")) by (rewrite <- X; apply in_app_iff; right; now left). cbn in D. repeat (destruct D as [D|D]; [discriminate|]). exact D.
Qed.
(** ** Running *)
(** the object read from the files of [s] written under the name [nm] *)
Definition written (i : sexinfo) (fs' : filesystem) (s : sex) (nm : str) : Prop := exists s2, new_sex i fs' (nm ++ L ".sex") None = Ok s2 /\ name s2 = nm /\
  (forall o v, In o (optorder i) -> o <> L "PARAMETERS_NAME" -> assoc o (options s) = Some v -> assoc o (options s2) = match words [] v with w :: _ => Some w | [] => assoc o (defaultopts i) end) /\
  ((exists p, In p (parorder i) /\ assoc p (params s) = Some true) -> forall p, In p (parorder i) -> assoc p (params s2) = assoc p (params s)).
Definition run_name (fs : filesystem) (s : sex) : str := if overwrite s then name s else if has (name s ++ L ".sex") fs then next_name (name s) else name s.
Lemma words_cmd im anim nm : word im -> (anim = [] \/ word anim) -> word nm -> words [] (L "sex " ++ im ++ match anim with [] => [] | _ => sp :: anim end ++ L " -c " ++ nm ++ L ".sex") = [L "sex"; im] ++ (match anim with [] => [] | _ => [anim] end) ++ [L "-c"; nm ++ L ".sex"].
Proof.
  intros Wi Wa Wn. assert (Wf : word (nm ++ L ".sex")). { destruct Wn as (A & B). split; [destruct nm; [congruence|discriminate]|]. apply Forall_app. split; [exact B|]. repeat constructor; discriminate. }
  assert (W0 : word (L "sex")) by (split; [discriminate|repeat constructor; discriminate]). assert (Wc : word (L "-c")) by (split; [discriminate|repeat constructor; discriminate]).
  change (L "sex ") with (L "sex" ++ [sp]). rewrite <- app_assoc. cbn [app]. change (L " -c ") with (sp :: L "-c" ++ [sp]).
  rewrite words_cons by (trivial; reflexivity). f_equal. destruct Wa as [->|Wa].
  - cbn [app]. rewrite words_cons by (trivial; reflexivity). f_equal. rewrite <- app_assoc. cbn [app]. rewrite words_cons by (trivial; reflexivity). now rewrite words_one.
  - destruct anim as [|a0 an] eqn:Ea; [destruct Wa; congruence|]. rewrite <- Ea in *. cbn [app]. rewrite words_cons by (trivial; reflexivity). f_equal. rewrite words_cons by (trivial; reflexivity). f_equal. rewrite <- app_assoc. cbn [app]. rewrite words_cons by (trivial; reflexivity). now rewrite words_one.
Qed.
Theorem run_command shown i fs s im anim : wf_info i -> (forall c, ~ In nl (shown c)) -> savable i s -> plain_name (name s) -> word im -> (anim = [] \/ word anim) ->
  exists fs' s', sextractImage shown i fs s im anim = (fs', s', Ok ([L "sex"; im] ++ (match anim with [] => [] | _ => [anim] end) ++ [L "-c"; run_name fs s ++ L ".sex"])) /\ name s' = run_name fs s /\ written i fs' s (run_name fs s) /\
  (forall f, f <> run_name fs s ++ L ".sex" -> f <> run_name fs s ++ L ".param" -> assoc f fs' = assoc f fs).
Proof.
  intros Wi Wc (So & Sp) P Wim Wan. unfold sextractImage. assert (Pn : plain_name (run_name fs s)). { unfold run_name. destruct (overwrite s); trivial. destruct (has _ _); trivial. now apply plain_next. }
  rewrite (no_sex_id (name s)) by apply P. fold (run_name fs s). set (nm := run_name fs s) in *. set (s0 := Sex nm (options s) (params s) (overwrite s)).
  destruct (saved_loads shown i fs s0 nm Wi Wc (conj So Sp) Pn) as (fs' & s' & s2 & E & N & Fo & Nn & _ & Ho & Hp & _). exists fs', s'. rewrite E. split; [|split; [|split; [exists s2; auto|exact Fo]]].
  - do 2 f_equal. apply words_cmd; trivial. apply Pn.
  - unfold saveFiles in E. cbn [name] in E. destruct (makeOptionStr _ _); try discriminate. destruct (makeParamStr _ _ _); try discriminate. injection E as _ <-. reflexivity.
Qed.
(** without overwrite the files of that name are not touched, whatever happens *)
Theorem sex_run_keeps shown i fs s im anim t : overwrite s = false -> ~ sub (L ".sex") (name s) -> assoc (name s ++ L ".sex") fs = Some t -> assoc (name s ++ L ".sex") (fst (fst (sextractImage shown i fs s im anim))) = Some t.
Proof.
  intros O N A. unfold sextractImage. rewrite O, (no_sex_id (name s) N), (some_has _ _ _ A). unfold saveFiles. rewrite (no_sex_id (next_name (name s)) (next_no_sex _ N)). set (nm := next_name (name s)). set (dir := match head_of nm with [] => [] | _ => _ end).
  assert (N1 : name s ++ L ".sex" <> nm ++ L ".sex"). { intros X. apply app_inv_tail in X. symmetry in X. now apply next_differs in X. }
  assert (N2 : name s ++ L ".sex" <> dir ++ nm ++ L ".param"). { intros X. apply (f_equal (@rev ascii)) in X. rewrite !rev_app_distr in X. discriminate. }
  cbn [name options params overwrite]. destruct (makeOptionStr _ _) as [o|e|]; [|exact A|exact A]. destruct (makeParamStr _ _ _) as [p|e|]; [|exact A|exact A]. cbn [fst]. now rewrite !assoc_put_other.
Qed.
(** ** What fails *)
Definition conf1 : str := L "CATALOG_NAME" ++ [tab] ++ L "test.cat # name of the catalog" ++ [nl] ++ L "PARAMETERS_NAME  default.param  # parameter file" ++ [nl] ++ L "ASSOC_PARAMS 2,3,4 # columns" ++ [nl] ++ L "                  # of xpos and ypos" ++ [nl] ++ L "NTHREADS 1 # last" ++ [nl].
Definition parm1 : str := L "#NUMBER Running object number" ++ [nl] ++ L "#X_IMAGE Object position along x [pixel]" ++ [nl] ++ L "#MAG_AUTO Magnitude [mag]" ++ [nl].
Definition info1 : sexinfo := getSexDefaults conf1 parm1.
Example info1_is : optorder info1 = map L ["CATALOG_NAME"; "PARAMETERS_NAME"; "ASSOC_PARAMS"]%string /\ assoc (L "ASSOC_PARAMS") (optinfo info1) = Some (L "columnsof xpos and ypos") /\ parorder info1 = map L ["NUMBER"; "X_IMAGE"; "MAG_AUTO"]%string /\ assoc (L "X_IMAGE") (parinfo info1) = Some (L "Object position along x", L "pixel").
Proof. vm_compute. repeat split. Qed.
Definition show1 (c : str * str) : str := L "(" ++ fst c ++ L ", " ++ snd c ++ L ")".
Definition sex1 : sex := Sex (L "field") (put (L "CATALOG_NAME") (L "out.cat") (defaultopts info1)) [(L "NUMBER", true); (L "X_IMAGE", false); (L "MAG_AUTO", true)] false.
Example wf1 : wf_info info1 /\ savable info1 sex1 /\ plain_name (name sex1) /\ (forall o v, In o (optorder info1) -> assoc o (options sex1) = Some v -> word v) /\ exists p, In p (parorder info1) /\ assoc p (params sex1) = Some true.
Proof.
  assert (Eo : optorder info1 = map L ["CATALOG_NAME"; "PARAMETERS_NAME"; "ASSOC_PARAMS"]%string) by (vm_compute; reflexivity). assert (Ep : parorder info1 = map L ["NUMBER"; "X_IMAGE"; "MAG_AUTO"]%string) by (vm_compute; reflexivity).
  assert (W : forall w, w <> [] -> forallb (fun a => negb (is_space a)) w = true -> word w). { intros w N F. split; [exact N|]. apply Forall_forall. intros a A X. rewrite forallb_forall in F. specialize (F a A). unfold space in X. rewrite X in F. discriminate. }
  assert (Ni : forall a (w : str), existsb (fun b => b =a a) w = false -> ~ In a w). { intros a w E X. assert (existsb (fun b => b =a a) w = true); [|congruence]. apply existsb_exists. exists a. split; [exact X|now apply ascii_eqb_spec]. }
  split; [split|split; [split|split; [|split]]].
  - rewrite Eo. repeat constructor; cbn; intros X; repeat (destruct X as [X|X]; [discriminate|]); exact X.
  - rewrite Eo. intros o O. cbn [map] in O. destruct O as [<-|[<-|[<-|[]]]]; (split; [apply W; [discriminate|reflexivity]|]; split; [apply Ni; reflexivity|]; split; [vm_compute; reflexivity|]; eexists; split; [vm_compute; reflexivity|]; apply Ni; reflexivity).
  - rewrite Eo. right. now left.
  - rewrite Ep. intros p P. cbn [map] in P. destruct P as [<-|[<-|[<-|[]]]]; (split; [apply W; [discriminate|reflexivity]|]; split; [discriminate|]; vm_compute; reflexivity).
  - rewrite Eo. intros o O. cbn [map] in O. destruct O as [<-|[<-|[<-|[]]]]; (eexists; split; [vm_compute; reflexivity|]; split; apply Ni; reflexivity).
  - rewrite Ep. intros p P. cbn [map] in P. destruct P as [<-|[<-|[<-|[]]]]; reflexivity.
  - split; [apply W; [discriminate|reflexivity]|]. split; [apply Ni; reflexivity|]. split; [apply Ni; reflexivity|]. split; [|discriminate]. intros (u & v & E). assert (X : In "."%char (name sex1)) by (rewrite E; apply in_app_iff; right; now left). revert X. apply Ni. reflexivity.
  - rewrite Eo. intros o v O. cbn [map] in O. destruct O as [<-|[<-|[<-|[]]]]; intros X; vm_compute in X; injection X as <-; (apply W; [discriminate|reflexivity]).
  - exists (L "NUMBER"). rewrite Ep. split; [now left|reflexivity].
Qed.
(** a value of two words loses the second *)
Theorem two_words_refuted : exists s fs' s' s2, saveFiles show1 info1 [] s (L "field") = (fs', s', Ok tt) /\ new_sex info1 fs' (L "field.sex") None = Ok s2 /\ assoc (L "CATALOG_NAME") (options s) = Some (L "my file.cat") /\ assoc (L "CATALOG_NAME") (options s2) = Some (L "my").
Proof. exists (Sex (L "field") (put (L "CATALOG_NAME") (L "my file.cat") (defaultopts info1)) (params sex1) false). eexists _, _, _. split; [vm_compute; reflexivity|]. split; [vm_compute; reflexivity|]. split; vm_compute; reflexivity. Qed.
(** a file without comment and without a newline at its end loses its last character *)
Theorem last_character_refuted : exists s2, new_sex info1 [(L "a.sex", L "CATALOG_NAME out.cat")] (L "a.sex") None = Ok s2 /\ assoc (L "CATALOG_NAME") (options s2) = Some (L "out.ca").
Proof. eexists. split; vm_compute; reflexivity. Qed.
(** with nothing chosen, some parameters are chosen when it is read back *)
Theorem nothing_chosen_refuted : exists s fs' s' s2, saveFiles show1 info1 [] s (L "field") = (fs', s', Ok tt) /\ new_sex info1 fs' (L "field.sex") None = Ok s2 /\ getParamList info1 s = Ok [] /\ getParamList info1 s2 = Ok (map L ["NUMBER"; "X_IMAGE"]%string).
Proof. exists (Sex (L "field") (options sex1) [(L "NUMBER", false); (L "X_IMAGE", false); (L "MAG_AUTO", false)] false). eexists _, _, _. split; [vm_compute; reflexivity|]. split; [vm_compute; reflexivity|]. split; vm_compute; reflexivity. Qed.
(** in another directory the parameter file is sought in a directory below *)
Theorem directory_refuted : exists fs' s', saveFiles show1 info1 [] sex1 (L "d/field") = (fs', s', Ok tt) /\ has (L "d/field.sex") fs' = true /\ has (L "d/field.param") fs' = false /\ has (L "d/d/field.param") fs' = true.
Proof. eexists _, _. split; [vm_compute; reflexivity|]. repeat split; vm_compute; reflexivity. Qed.
(** files named default are not read back *)
Theorem default_refuted : exists fs' s' s2, saveFiles show1 info1 [] sex1 (L "default") = (fs', s', Ok tt) /\ new_sex info1 fs' (L "default.sex") None = Ok s2 /\ assoc (L "MAG_AUTO") (params sex1) = Some true /\ assoc (L "MAG_AUTO") (params s2) = Some false.
Proof. eexists _, _, _. split; [vm_compute; reflexivity|]. split; [vm_compute; reflexivity|]. split; vm_compute; reflexivity. Qed.
(** only one name is tried: a file of the next name is replaced although overwrite is off *)
Theorem next_file_refuted : exists fs fs' s' cmd, overwrite sex1 = false /\ assoc (L "field-2.sex") fs = Some (L "mine") /\ sextractImage show1 info1 fs sex1 (L "a.fits") [] = (fs', s', Ok cmd) /\ assoc (L "field-2.sex") fs' <> Some (L "mine").
Proof. exists [(L "field.sex", []); (L "field-2.sex", L "mine")]. eexists _, _, _. split; [reflexivity|]. split; [vm_compute; reflexivity|]. split; [vm_compute; reflexivity|]. vm_compute. discriminate. Qed.
(** and file names with spaces end up as several arguments *)
Theorem image_name_refuted : exists fs' s', sextractImage show1 info1 [] sex1 (L "my image.fits") [] = (fs', s', Ok (map L ["sex"; "my"; "image.fits"; "-c"; "field.sex"]%string)).
Proof. eexists _, _. vm_compute. reflexivity. Qed.
