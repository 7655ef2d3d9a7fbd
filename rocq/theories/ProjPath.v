(** * ProjPath: the paths of projects, and what goes wrong (C106, C107) *)
From Coq Require Import List Bool Arith Ascii String Lia.
From Verif Require Import PyBase PubModel PubComments IoColumns IoFiles CfgModel CfgRx CfgLine CfgRead CfgFile CfgEdit ProjModel ProjProof.
Import ListNotations.

Lemma split_parts c s : Forall (fun x => ~ In c x) (split_on c s).
Proof.
  induction s as [|a s IH]; cbn [split_on]; [constructor; [intros []|constructor]|]. destruct (a =a c) eqn:E; [constructor; [intros []|exact IH]|].
  destruct (split_on c s) as [|x l]; [constructor; [|constructor]; intros [H|[]]; subst; rewrite (proj2 (ascii_eqb_spec c c) eq_refl) in E; discriminate|].
  inversion IH as [|? ? Hx Hl]; subst. constructor; [|exact Hl]. intros [H|H]; [subst; rewrite (proj2 (ascii_eqb_spec c c) eq_refl) in E; discriminate|contradiction].
Qed.
Lemma walk_proper comps : forall kept, Forall (fun x => ~ In sep x) comps -> Forall proper kept -> Forall proper (walk true comps kept).
Proof.
  induction comps as [|c r IH]; intros kept F K; [exact K|]. inversion F as [|? ? Hc F']; subst. cbn [walk]. destruct (str_eqb c [] || str_eqb c (L ".")) eqn:E1; [now apply IH|]. apply orb_false_iff in E1. destruct E1 as (E1 & E2).
  assert (forall x y : str, str_eqb x y = false -> x <> y) as Ne by (intros x y H H'; subst; rewrite str_eqb_same in H; discriminate).
  cbn [negb andb]. rewrite orb_false_r. destruct (str_eqb c (L "..")) eqn:E3; cbn [negb orb].
  - assert (match kept with l :: _ => str_eqb l (L "..") | [] => false end = false) as ->. { destruct kept as [|l kept]; [reflexivity|]. inversion K as [|? ? (_ & _ & N & _) _]; subst. now apply str_eqb_diff. }
    apply IH; [exact F'|]. destruct kept as [|l kept]; [constructor|]. now inversion K.
  - apply IH; [exact F'|]. constructor; [|exact K]. split; [now apply Ne|]. split; [now apply Ne|]. split; [now apply Ne|exact Hc].
Qed.
Lemma isabs_join a b : isabs a = true -> isabs (pjoin a b) = true.
Proof. intros H. unfold pjoin. destruct (isabs b) eqn:E; [exact E|]. destruct a as [|x a]; [discriminate|]. destruct (ends_sep (x :: a)); exact H. Qed.
Lemma normpath_full p : isabs p = true -> full_path (normpath p).
Proof.
  intros A. unfold normpath. destruct p as [|a p]; [discriminate|]. rewrite A. pose proof (walk_proper (split_on sep (a :: p)) [] (split_parts sep (a :: p)) (Forall_nil _)) as W. apply Forall_rev in W. set (cs := rev (walk true (split_on sep (a :: p)) [])) in *. clearbody cs.
  assert (slashes (a :: p) = L "/" \/ slashes (a :: p) = L "//") as [-> | ->].
  { unfold slashes. cbn [isabs] in A. destruct p as [|b [|c p]]; rewrite A; [now left| |]; [destruct (is sep b); auto|destruct (is sep b && negb (is sep c)); auto]. }
  - exists cs. split; [exact W|]. left. reflexivity.
  - exists cs. split; [exact W|]. right. reflexivity.
Qed.
(** C106: the directory and the script are full paths without . and .. *)
Theorem project_paths w name dir script : isabs (cwd w) = true -> full_path (project_dir w name dir) /\ full_path (script_file w (project_dir w name dir) name script).
Proof.
  intros A. assert (forall p, full_path (abspath (cwd w) p)) as H. { intros p. unfold abspath. apply normpath_full. destruct (isabs p) eqn:E; [exact E|now apply isabs_join]. } split; apply H.
Qed.
(** with the defaults they are the project's name in the working directory, and in it that name with .py *)
Definition simple_name (n : str) : Prop := proper n /\ ends_py n = false.
Lemma walk_keep cs kept : Forall proper cs -> walk true cs kept = rev cs ++ kept.
Proof.
  intros F. revert kept. induction F as [|c r (P1 & P2 & P3 & P4) F IH]; intros kept; [reflexivity|]. cbn [walk]. rewrite !str_eqb_diff by assumption. cbn [orb negb]. rewrite IH. cbn [rev]. now rewrite <- app_assoc.
Qed.
Lemma split_join_sep cs : cs <> [] -> Forall proper cs -> split_on sep (join [sep] cs) = cs.
Proof.
  intros N F. induction F as [|c r (P1 & P2 & P3 & P4) F IH]; [contradiction|]. destruct r as [|d r]; [now apply split_no|]. change (join [sep] (c :: d :: r)) with (c ++ sep :: join [sep] (d :: r)). rewrite split_one by exact P4. f_equal. apply IH. discriminate.
Qed.
Lemma walk_skip a r kept : a = [] \/ a = L "." -> walk true (a :: r) kept = walk true r kept.
Proof. intros [-> | ->]; reflexivity. Qed.
Lemma join_snoc cs n : cs <> [] -> join [sep] (cs ++ [n]) = join [sep] cs ++ sep :: n.
Proof. induction cs as [|c r IH]; [contradiction|]. intros _. destruct r as [|d r]; [reflexivity|]. change ((c :: d :: r) ++ [n]) with (c :: (d :: r) ++ [n]). change (join [sep] (c :: d :: r)) with (c ++ [sep] ++ join [sep] (d :: r)). rewrite <- !app_assoc. rewrite <- IH by discriminate. reflexivity. Qed.
Lemma normpath_id cs : Forall proper cs -> normpath (sep :: join [sep] cs) = sep :: join [sep] cs.
Proof.
  intros F. unfold normpath. cbn [isabs]. rewrite is_refl. assert (walk true (split_on sep (sep :: join [sep] cs)) [] = rev cs) as ->.
  { change (split_on sep (sep :: join [sep] cs)) with ([] :: split_on sep (join [sep] cs)). rewrite walk_skip by now left. destruct cs as [|c cs]; [reflexivity|]. rewrite split_join_sep by (try discriminate; assumption). rewrite walk_keep by exact F. now rewrite app_nil_r. }
  rewrite rev_involutive. assert (slashes (sep :: join [sep] cs) = [sep]) as ->; [|reflexivity].
  destruct F as [|c cs (P1 & _ & _ & P4) _]; [reflexivity|]. destruct c as [|a c]; [contradiction|]. assert (is sep a = false) as Ea by (apply is_neq; intros ->; apply P4; now left).
  assert (exists r, join [sep] ((a :: c) :: cs) = a :: r) as (r & ->) by (destruct cs; cbn [join app]; eauto). cbn [slashes]. destruct r as [|b r]; rewrite is_refl, Ea; reflexivity.
Qed.
(** C106: by default the directory is the project's name in the working directory and the script has that name with .py *)
Theorem default_paths w cs n : cwd w = L "/" ++ join (L "/") cs -> cs <> [] -> Forall proper cs -> simple_name n ->
  project_dir w n None = cwd w ++ L "/" ++ n /\ script_file w (project_dir w n None) n None = cwd w ++ L "/" ++ n ++ L "/" ++ n ++ L ".py".
Proof.
  intros C Nc F (P & Py). assert (~ In sep n) as Ns by apply P. assert (isabs n = false) as An by (destruct n as [|a n]; [reflexivity|]; cbn [isabs]; apply is_neq; intros ->; apply Ns; now left).
  assert (forall q, Forall proper (cs ++ q) -> normpath (sep :: join [sep] (cs ++ q)) = sep :: join [sep] (cs ++ q)) as N by (intros; now apply normpath_id).
  assert (ends_sep (cwd w) = false) as Es. { rewrite C. destruct (@exists_last _ cs Nc) as (z & l & ->). apply Forall_app in F. destruct F as (_ & F). inversion F as [|? ? (L1 & _ & _ & L4) _]; subst. destruct (@exists_last _ l L1) as (l' & a & ->). assert (exists y, L "/" ++ join (L "/") (z ++ [l' ++ [a]]) = y ++ [a]) as (y & ->). { destruct z as [|b z]; [exists (L "/" ++ l'); cbn [app join]; now rewrite <- app_assoc|]. change (L "/") with [sep]. rewrite join_snoc by discriminate. exists ([sep] ++ join [sep] (b :: z) ++ sep :: l'). rewrite <- !app_assoc. reflexivity. } unfold ends_sep. rewrite rev_app_distr. cbn [rev app]. apply is_neq. intros ->. apply L4. apply in_or_app. right. now left. }
  assert (project_dir w n None = cwd w ++ L "/" ++ n) as D.
  { unfold project_dir, abspath. assert (pjoin (L ".") n = L "./" ++ n) as -> by (unfold pjoin; rewrite An; reflexivity). change (isabs (L "./" ++ n)) with false. cbv iota. unfold pjoin. change (isabs (L "./" ++ n)) with false. cbv iota. rewrite C in *. cbn [app L list_ascii_of_string]. change (L "/" ++ join (L "/") cs) with (sep :: join [sep] cs) in *. cbn [app]. change "/"%char with sep. rewrite Es.
    unfold normpath. cbn [isabs]. rewrite is_refl.
    assert (walk true (split_on sep (sep :: join [sep] cs ++ sep :: "."%char :: sep :: n)) [] = rev (cs ++ [n])) as ->.
    { change (split_on sep (sep :: join [sep] cs ++ sep :: "."%char :: sep :: n)) with ([] :: split_on sep (join [sep] cs ++ sep :: "."%char :: sep :: n)). rewrite walk_skip by now left.
      assert (forall r kept, walk true (split_on sep (join [sep] cs ++ sep :: r)) kept = walk true (split_on sep r) (rev cs ++ kept)) as W.
      { clear - F Nc. induction F as [|c r (P1 & P2 & P3 & P4) F IH]; [contradiction|]. intros u kept. destruct r as [|d r].
        - cbn [join]. rewrite split_one by exact P4. cbn [walk]. rewrite !str_eqb_diff by assumption. reflexivity.
        - change (join [sep] (c :: d :: r)) with (c ++ sep :: join [sep] (d :: r)). rewrite <- app_assoc. cbn [app]. rewrite split_one by exact P4. cbn [walk]. rewrite !str_eqb_diff by assumption. cbn [orb negb]. rewrite IH by discriminate. cbn [rev]. now rewrite <- !app_assoc. }
      rewrite W, app_nil_r. change ("."%char :: sep :: n) with (L "." ++ sep :: n). rewrite split_one by (intros [H|[]]; discriminate). rewrite walk_skip by now right. rewrite split_no by exact Ns. destruct P as (P1 & P2 & P3 & P4). cbn [walk]. rewrite !str_eqb_diff by assumption. cbn [orb negb]. now rewrite rev_app_distr. }
    rewrite rev_involutive, join_snoc by exact Nc. assert (forall r, slashes (sep :: join [sep] cs ++ sep :: r) = [sep]) as ->; [|reflexivity].
    intros r. destruct F as [|c cs' (P1 & _ & _ & P4) _]; [contradiction|]. destruct c as [|a c]; [contradiction|]. assert (is sep a = false) as Ea by (apply is_neq; intros ->; apply P4; now left).
    assert (exists u v, join [sep] ((a :: c) :: cs') ++ sep :: r = a :: u :: v) as (u & v & ->) by (destruct cs' as [|? ?]; cbn [join app]; destruct c; cbn [app]; eauto). cbn [slashes]. rewrite is_refl, Ea. reflexivity. }
  split; [exact D|]. rewrite D. unfold script_file. assert (map (fun a => if is sep a then "_"%char else a) n = n) as ->. { rewrite <- (map_id n) at 2. apply map_ext_in. intros a I'. assert (is sep a = false) as -> by (apply is_neq; intros ->; contradiction). reflexivity. }
  assert (pjoin (cwd w ++ L "/" ++ n) n = cwd w ++ L "/" ++ n ++ L "/" ++ n) as ->.
  { unfold pjoin. rewrite An. destruct (cwd w ++ L "/" ++ n) as [|x y] eqn:Exy; [rewrite C in Exy; discriminate|]. rewrite <- Exy. assert (ends_sep (cwd w ++ L "/" ++ n) = false) as ->. { destruct P as (P1 & _ & _ & P4). destruct (@exists_last _ n P1) as (z & a & ->). unfold ends_sep. rewrite !rev_app_distr. cbn [rev app]. apply is_neq. intros ->. apply P4. apply in_or_app. right. now left. } rewrite <- !app_assoc. reflexivity. }
  assert (ends_py (cwd w ++ L "/" ++ n ++ L "/" ++ n) = false) as ->.
  { unfold ends_py in *. rewrite !rev_app_distr. rewrite <- !app_assoc. destruct P as (P1 & _ & _ & P4). revert Py P1 P4. rewrite <- (rev_involutive n) at 2. intros Py P1 P4. assert (~ In sep (rev n)) as P4' by (intros H; apply P4; now apply in_rev). 
    assert (rev n <> []) as P1' by (intros H; apply P1; now rewrite <- (rev_involutive n), H). clear - Py P1' P4'. set (m := rev n) in *. clearbody m. revert Py. change (rev (L ".py")) with (L "yp."). cbn [L list_ascii_of_string rev app]. intros Py.
    destruct m as [|a m]; [contradiction|]. cbn [app prefix L list_ascii_of_string] in *. destruct (Ascii.eqb "y" a); [|reflexivity]. cbn [andb] in *. destruct m as [|b m]; [reflexivity|]. cbn [app prefix] in *. destruct (Ascii.eqb "p" b); [|reflexivity]. cbn [andb] in *. destruct m as [|c m]; [reflexivity|]. cbn [app prefix] in *. exact Py. }
  unfold abspath. assert (proper (n ++ L ".py")) as Pn. { destruct P as (P1 & P2 & P3 & P4). repeat split.
    - destruct n; discriminate.
    - intros H. apply (f_equal (@List.length ascii)) in H. rewrite app_length in H. cbn in H. lia.
    - intros H. apply (f_equal (@List.length ascii)) in H. rewrite app_length in H. cbn in H. lia.
    - intros H. apply in_app_or in H. destruct H as [H|[H|[H|[H|[]]]]]; try discriminate. contradiction. }
  assert ((cwd w ++ L "/" ++ n ++ L "/" ++ n) ++ L ".py" = sep :: join [sep] (cs ++ [n; n ++ L ".py"])) as E. { rewrite C. replace (cs ++ [n; n ++ L ".py"]) with ((cs ++ [n]) ++ [n ++ L ".py"]) by (rewrite <- app_assoc; reflexivity). rewrite join_snoc by (destruct cs; discriminate). rewrite join_snoc by exact Nc. change (L "/") with [sep]. rewrite <- !app_assoc. reflexivity. }
  rewrite E. cbn [isabs]. rewrite is_refl. rewrite N; [|apply Forall_app; split; [exact F|constructor; [exact P|constructor; [exact Pn|constructor]]]]. rewrite <- E. rewrite <- !app_assoc. reflexivity.
Qed.

(** following a path component by component: empty ones and . stay, .. goes up (and stays in the root), others go down *)
Inductive leads : list str -> list str -> list str -> Prop :=
| leads_end d : leads d [] d
| leads_stay c r d e : c = [] \/ c = L "." -> leads d r e -> leads d (c :: r) e
| leads_up r d e : leads (removelast d) r e -> leads d (L ".." :: r) e
| leads_down c r d e : c <> [] -> c <> L "." -> c <> L ".." -> leads (d ++ [c]) r e -> leads d (c :: r) e.
Lemma walk_leads comps : forall kept, Forall proper kept -> Forall (fun x => ~ In sep x) comps -> leads (rev kept) comps (rev (walk true comps kept)).
Proof.
  induction comps as [|c r IH]; intros kept K F; [constructor|]. inversion F as [|? ? Hc F']; subst. cbn [walk]. destruct (str_eqb c [] || str_eqb c (L ".")) eqn:E1.
  - apply leads_stay; [|now apply IH]. apply orb_true_iff in E1. destruct E1 as [E1|E1]; apply str_eqb_spec in E1; auto.
  - apply orb_false_iff in E1. destruct E1 as (E1 & E2). assert (forall x y : str, str_eqb x y = false -> x <> y) as Ne by (intros x y H H'; subst; rewrite str_eqb_same in H; discriminate).
    cbn [negb andb]. rewrite orb_false_r. destruct (str_eqb c (L "..")) eqn:E3; cbn [negb orb].
    + apply str_eqb_spec in E3. subst c. assert (match kept with l :: _ => str_eqb l (L "..") | [] => false end = false) as ->. { destruct kept as [|l kept]; [reflexivity|]. inversion K as [|? ? (_ & _ & N & _) _]; subst. now apply str_eqb_diff. }
      apply leads_up. assert (removelast (rev kept) = rev (tl kept)) as -> by (destruct kept; [reflexivity|]; cbn [rev tl]; apply removelast_last). apply IH; [destruct kept; [constructor|now inversion K]|exact F'].
    + apply leads_down; auto. change (rev kept ++ [c]) with (rev (c :: kept)). apply IH; [|exact F']. constructor; [|exact K]. split; [now apply Ne|]. split; [now apply Ne|]. split; [now apply Ne|exact Hc].
Qed.
Lemma walk_under cs : Forall proper cs -> cs <> [] -> forall r kept, walk true (split_on sep (join [sep] cs ++ sep :: r)) kept = walk true (split_on sep r) (rev cs ++ kept).
Proof.
  intros F Nc. induction F as [|c r (P1 & P2 & P3 & P4) F IH]; [contradiction|]. intros u kept. destruct r as [|d r].
  - cbn [join]. rewrite split_one by exact P4. cbn [walk]. rewrite !str_eqb_diff by assumption. reflexivity.
  - change (join [sep] (c :: d :: r)) with (c ++ sep :: join [sep] (d :: r)). rewrite <- app_assoc. cbn [app]. rewrite split_one by exact P4. cbn [walk]. rewrite !str_eqb_diff by assumption. cbn [orb negb]. rewrite IH by discriminate. cbn [rev]. now rewrite <- !app_assoc.
Qed.
(** C106: a directory that is given is followed from the root or from the working directory *)
Theorem given_path w cs name p : cwd w = L "/" ++ join (L "/") cs -> Forall proper cs -> p <> [] ->
  exists e, leads (if isabs p then [] else cs) (split_on "/"%char p) e /\ (project_dir w name (Some p) = L "/" ++ join (L "/") e \/ (isabs p = true /\ project_dir w name (Some p) = L "//" ++ join (L "/") e)).
Proof.
  intros C F Np. unfold project_dir, abspath. destruct (isabs p) eqn:A.
  - exists (rev (walk true (split_on sep p) [])). split; [apply (walk_leads _ []); [constructor|apply split_parts]|]. unfold normpath. destruct p as [|a p]; [contradiction|]. rewrite A.
    assert (slashes (a :: p) = L "/" \/ slashes (a :: p) = L "//") as [-> | ->]; [|now left|now right]. unfold slashes. cbn [isabs] in A. destruct p as [|b [|c p]]; rewrite A; [now left| |]; [destruct (is sep b); auto|destruct (is sep b && negb (is sep c)); auto].
  - exists (rev (walk true (split_on sep p) (rev cs))). split; [rewrite <- (rev_involutive cs) at 1; apply walk_leads; [now apply Forall_rev|apply split_parts]|]. left.
    destruct p as [|a p]; [contradiction|]. cbn [isabs] in A. unfold pjoin. cbn [isabs]. rewrite A. rewrite C. change (L "/" ++ join (L "/") cs) with (sep :: join [sep] cs).
    assert (forall u, is sep a = false -> match u with b :: _ => is sep b = false | [] => False end -> normpath (sep :: u) = sep :: join [sep] (rev (walk true (split_on sep u) []))) as N.
    { intros u _ Hu. unfold normpath. cbn [isabs]. rewrite is_refl. change (split_on sep (sep :: u)) with ([] :: split_on sep u). rewrite walk_skip by now left. destruct u as [|b u]; [contradiction|]. assert (slashes (sep :: b :: u) = [sep]) as -> by (destruct u; cbn [slashes]; rewrite is_refl, Hu; reflexivity). reflexivity. }
    destruct cs as [|c cs].
    + change (ends_sep (sep :: join [sep] [])) with true. cbv iota. cbn [join app rev]. rewrite (N (a :: p) A A). reflexivity.
    + assert (ends_sep (sep :: join [sep] (c :: cs)) = false) as ->. { destruct (@exists_last _ (c :: cs)) as (z & l & El); [discriminate|]. rewrite El in *. apply Forall_app in F. destruct F as (_ & F). inversion F as [|? ? (L1 & _ & _ & L4) _]; subst. destruct (@exists_last _ l L1) as (l' & x & ->). assert (exists y, sep :: join [sep] (z ++ [l' ++ [x]]) = y ++ [x]) as (y & ->). { destruct z as [|b z]; [exists (sep :: l'); reflexivity|]. rewrite join_snoc by discriminate. exists (sep :: join [sep] (b :: z) ++ sep :: l'). cbn [app]. rewrite <- app_assoc. reflexivity. } unfold ends_sep. rewrite rev_app_distr. cbn [rev app]. apply is_neq. intros ->. apply L4. apply in_or_app. right. now left. }
      change ((sep :: join [sep] (c :: cs)) ++ sep :: a :: p) with (sep :: join [sep] (c :: cs) ++ sep :: a :: p). rewrite N; [|exact A|].
      * rewrite walk_under by (try assumption; discriminate). rewrite app_nil_r. reflexivity.
      * inversion F as [|? ? (L1 & _ & _ & L4) _]; subst. destruct c as [|x c]; [contradiction|]. assert (exists r, join [sep] ((x :: c) :: cs) = x :: r) as (r & ->) by (destruct cs; cbn [join app]; eauto). cbn [app]. apply is_neq. intros ->. apply L4. now left.
Qed.

(** ** Cases, and what goes wrong *)
Definition w0 : world := World (fun _ => true) (L "/home/u") (L "/home/u/.astropysics") (L "import x").
Fixpoint disk (l : list (str * node)) : fs := fun p => match l with [] => None | (q, n) :: r => if str_eqb p q then Some n else disk r p end.
Example given_path_case : cwd w0 = L "/" ++ join (L "/") [L "home"; L "u"] /\ project_dir w0 (L "n") (Some (L "../v/./w/")) = L "/home/v/w" /\ leads [L "home"; L "u"] (split_on "/"%char (L "../v/./w/")) [L "home"; L "v"; L "w"].
Proof. split; [reflexivity|]. split; [reflexivity|]. apply leads_up. apply leads_down; try discriminate. apply leads_stay; [now right|]. apply leads_down; try discriminate. apply leads_stay; [now left|]. apply leads_end. Qed.
Definition s0 : fs := disk [(L "/", Dir); (L "/home", Dir); (L "/home/u", Dir)].
Definition end_of {A} (m : list fs * fs * ans A) : fs := snd (fst m).
Definition answer {A} (m : list fs * fs * ans A) : ans A := snd m.
Definition moments {A} (m : list fs * fs * ans A) : list fs := fst (fst m).
Definition s1 : fs := end_of (add_project w0 (L "a") None None s0).
Example add_case : answer (add_project w0 (L "a") None None s0) = Fine (L "/home/u/a", L "/home/u/a/a.py") /\ answer (get_projects w0 s1) = Fine [(L "a", Lst [L "/home/u/a"; L "/home/u/a/a.py"])] /\ s1 (L "/home/u/a/a.py") = Some (File (L "import x")).
Proof. vm_compute. auto. Qed.
Example add_other_case : answer (add_project w0 (L "x/../b") (Some (L "../u//a")) (Some (L "./m")) s1) = Fine (L "/home/u/a", L "/home/u/a/m").
Proof. vm_compute. reflexivity. Qed.
Example valid_case : valid w0 (Add (L "a") None None) /\ valid w0 (Add (L "a, b") (Some (L "c")) (Some (L "d.py"))) /\ s0 (conf w0) = None.
Proof.
  assert (forall s, forallb (fun a => negb (existsb (Nat.eqb (nat_of_ascii a)) [10; 12; 13])) s = true -> mem sq s = false -> storable s) as St.
  { intros s H H2. split; [|intros ((B & _) & _); apply mem_false in H2; contradiction]. intros a I' J. rewrite forallb_forall in H. specialize (H a I'). apply negb_true_iff in H. assert (existsb (Nat.eqb (nat_of_ascii a)) [10; 12; 13] = true); [|congruence]. apply existsb_exists. exists (nat_of_ascii a). split; [exact J|apply Nat.eqb_refl]. }
  split; [|split; [|reflexivity]]; (split; [split; [apply St; reflexivity|]|split; [apply St; vm_compute; reflexivity|split; [apply St; vm_compute; reflexivity|split; vm_compute; discriminate]]]).
  - right. split; [intros [H|[]]; discriminate|]. intros a r E. inversion E. subst. split; [discriminate|cbn; lia].
  - left. left. cbn. tauto.
Qed.
(** a crash while the registry is written can lose every project *)
Definition crashed : list fs := moments (add_project w0 (L "b") None None s1).
Theorem crash_loses_projects_refuted : exists x, In x crashed /\ answer (get_projects w0 x) = Fine [] /\ answer (get_projects w0 s1) <> Fine [].
Proof. exists (nth 10 crashed s0). split; [apply nth_In; vm_compute; lia|]. vm_compute. split; [reflexivity|discriminate]. Qed.
(** after a crash while the template is written, adding the project again leaves the script as it is *)
Theorem crash_leaves_script_refuted : exists x, In x crashed /\ answer (add_project w0 (L "b") None None x) = Fine (L "/home/u/b", L "/home/u/b/b.py") /\ end_of (add_project w0 (L "b") None None x) (L "/home/u/b/b.py") = Some (File (L "imp")).
Proof. exists (nth 4 crashed s0). split; [apply nth_In; vm_compute; lia|]. vm_compute. auto. Qed.
(** with one line that cannot be read the answer is not the documented exception; adding a project leaves a directory and a script behind *)
Definition bad : fs := upd (conf w0) (File (L "nonsense")) (end_of (get_projects w0 s0)).
Theorem one_error_refuted : answer (get_config w0 bad) = Fine None /\ answer (get_projects w0 bad) = Error TypeError /\ answer (add_project w0 (L "a") None None bad) = Error TypeError /\ end_of (add_project w0 (L "a") None None bad) (L "/home/u/a/a.py") = Some (File (L "import x")) /\
  answer (get_projects w0 (upd (conf w0) (File (L "nonsense" ++ nl :: L "again")) bad)) = Error ConfigObjError.
Proof. vm_compute. auto 10. Qed.
