(** * VotRun: reading a whole document (C100) *)
From Coq Require Import List Bool Arith Ascii String Lia.
From Verif Require Import PyBase PubModel AngStrModel AngStrRead RegModel RegProof VotModel VotSpec VotProof.
Import ListNotations.

Section Run.
Variables (value : Type) (type_ok : str -> bool) (conv : str -> str -> option value).
Notation run := (run value type_ok conv).
Notation step := (step value type_ok conv).
Notation State := (State value).
Lemma run_app l1 : forall s l2, run s (l1 ++ l2) = match run s l1 with Ok s => run s l2 | Raise e => Raise e | OutOfFuel => OutOfFuel end.
Proof. induction l1 as [|e l1 IH]; intros s l2; [reflexivity|]. cbn [app VotModel.run]. destruct (step s e); auto. Qed.
Lemma run_ignored l : forall s, run s l = run s (filter not_ignored l).
Proof.
  induction l as [|e l IH]; intros s; [reflexivity|]. destruct e; cbn [filter not_ignored VotModel.run]; try (destruct (step s _); auto; fail).
  destruct s. cbn [VotModel.step]. apply IH.
Qed.
(** descriptions change descriptions only *)
Lemma desc_table ta td rd vd rc tc vo r n rp tp fi nr ar pa d : r <> [] -> exists td', run (State ta td rd vd rc tc vo (Some r) (Some n) rp tp fi nr ar pa) (desc_events d) = Ok (State ta td' rd vd rc tc vo (Some r) (Some n) rp tp fi nr ar pa).
Proof. intros R. destruct d as [d|]; [|exists td; reflexivity]. destruct r as [|x r]; [congruence|]. eexists. reflexivity. Qed.
Lemma desc_res ta td rd vd rc tc vo r rp tp fi nr ar pa d : r <> [] -> exists rd', run (State ta td rd vd rc tc vo (Some r) None rp tp fi nr ar pa) (desc_events d) = Ok (State ta td rd' vd rc tc vo (Some r) None rp tp fi nr ar pa).
Proof. intros R. destruct d as [d|]; [|exists rd; reflexivity]. destruct r as [|x r]; [congruence|]. eexists. reflexivity. Qed.
Lemma desc_doc ta td rd vd rc tc vo rp tp fi nr ar pa d : exists vd', run (State ta td rd vd rc tc vo None None rp tp fi nr ar pa) (desc_events d) = Ok (State ta td rd vd' rc tc vo None None rp tp fi nr ar pa).
Proof. destruct d as [d|]; [|exists vd; reflexivity]. eexists. reflexivity. Qed.
(** parameters *)
Notation param_rel := (param_rel value conv).
Notation field_rel := (field_rel type_ok).
Lemma params_doc ta td rd vd rc tc it_r tp fi nr ar pa ns ps : Forall2 param_rel ns ps -> forall vo,
  run (State ta td rd vd rc tc vo None None it_r tp fi nr ar pa) (map SParam ns) = Ok (State ta td rd vd rc tc (vo ++ ps) None None it_r tp fi nr ar pa).
Proof. induction 1 as [|n p ns ps (E & _) F IH]; intros vo; cbn [map VotModel.run]; [now rewrite app_nil_r|]. cbn [VotModel.step]. rewrite E. cbn [truth]. rewrite IH, <- app_assoc. reflexivity. Qed.
Lemma params_res ta td rd vd rc tc vo r tp fi nr ar pa ns ps : r <> [] -> Forall2 param_rel ns ps -> forall rp,
  run (State ta td rd vd rc tc vo (Some r) None (Some rp) tp fi nr ar pa) (map SParam ns) = Ok (State ta td rd vd rc tc vo (Some r) None (Some (rp ++ ps)) tp fi nr ar pa).
Proof. intros R. destruct r as [|x r]; [congruence|]. induction 1 as [|n p ns ps (E & _) F IH]; intros rp; cbn [map VotModel.run]; [now rewrite app_nil_r|]. cbn [VotModel.step]. rewrite E. cbn [truth]. rewrite IH, <- app_assoc. reflexivity. Qed.
Lemma head_run ta td rd vd rc tc vo ir n rp nr ar pa h : forall fi tp, Forall (good_param value conv) (flat_map (fun x => match x with inl n => [n] | inr _ => [] end) h) -> Forall (good_field type_ok) (flat_map (fun x => match x with inr n => [n] | inl _ => [] end) h) ->
  exists ps fs, Forall2 param_rel (flat_map (fun x => match x with inl n => [n] | inr _ => [] end) h) ps /\ Forall2 field_rel (flat_map (fun x => match x with inr n => [n] | inl _ => [] end) h) fs /\
  run (State ta td rd vd rc tc vo ir (Some n) rp (Some tp) (Some fi) nr ar pa) (map (fun x => match x with inl n => SParam n | inr n => SField n end) h) = Ok (State ta td rd vd rc tc vo ir (Some n) rp (Some (tp ++ ps)) (Some (fi ++ fs)) nr ar pa).
Proof.
  induction h as [|[x|x] h IH]; intros fi tp G1 G2; cbn [flat_map app map VotModel.run] in *.
  - exists [], []. rewrite !app_nil_r. repeat constructor.
  - inversion G1 as [|? ? Gx G1']; subst. destruct (param_good value conv x Gx) as (p & P). destruct (IH fi (tp ++ [p]) G1' G2) as (ps & fs & A & B & C). exists (p :: ps), fs. split; [now constructor|]. split; [exact B|].
    destruct P as (E & _). cbn [VotModel.step]. rewrite E. rewrite C, <- app_assoc. reflexivity.
  - inversion G2 as [|? ? Gx G2']; subst. destruct (field_good type_ok x Gx) as (f & P). destruct (IH (fi ++ [f]) tp G1 G2') as (ps & fs & A & B & C). exists ps, (f :: fs). split; [exact A|]. split; [now constructor|].
    destruct P as (E & _). cbn [VotModel.step]. rewrite E. rewrite C, <- app_assoc. reflexivity.
Qed.
(** a table *)
Definition filled (t : vot_table) (fs : list field) (a : list (list (cell value))) (m : list (list bool)) : Prop :=
  exists rs, rows_of (vt_body t) rs /\ List.length a = List.length rs /\ List.length m = List.length rs /\
    forall i r, nth_error rs i = Some r -> exists ai mi, nth_error a i = Some ai /\ nth_error m i = Some mi /\ List.length ai = List.length r /\ List.length mi = List.length r /\
      forall j n c, nth_error (heads t) j = Some n -> nth_error r j = Some c -> exists x q, nth_error ai j = Some x /\ nth_error mi j = Some q /\ cell_right value conv n c x q.
Definition entry_ok (p : place) (e : str * table value) : Prop :=
  fst e = pl_name p /\ exists ps0 ps fs a m, Forall2 param_rel (pl_params p) ps0 /\ Forall2 param_rel (own_params (pl_table p)) ps /\ Forall2 field_rel (heads (pl_table p)) fs /\ NoDup (map fname fs) /\
  filled (pl_table p) fs a m /\ snd e = Table value a m (Some (pl_res p)) fs (par_dict (ps0 ++ ps)) (par_exts (ps0 ++ ps)).
Lemma table_run ta td rd vd rc tc vo r rps tp nr t n used : r <> [] -> good_table value type_ok conv t -> table_name_of used (S tc) r t n -> (forall x, has x ta = true <-> In x used) ->
  forall scope, Forall2 param_rel scope (vo ++ rps) -> exists e td' tp' nr', entry_ok (Place n r scope t) e /\
  run (State ta td rd vd rc tc vo (Some r) None (Some rps) tp None nr None None) (table_events t) = Ok (State (put n (snd e) ta) td' rd vd rc (S tc) vo (Some r) None (Some rps) tp' None nr' None None).
Proof.
  intros R (G1 & G2 & G3 & rs & G4 & G5) (base & Nb & N1 & N2) U scope F0.
  assert (EN : (let b := match vt_name t with Some x => r ++ L ":" ++ x | None => L "tab" ++ decimal (S tc) end in if has b ta then b ++ L "_" ++ decimal (S tc) else b) = n).
  { cbn zeta. replace (match vt_name t with Some x => r ++ L ":" ++ x | None => L "tab" ++ decimal (S tc) end) with base by (destruct (vt_name t); subst base; reflexivity).
    destruct (has base ta) eqn:H; [symmetry; apply N2; now apply U|]. symmetry. apply N1. intros X. apply U in X. congruence. }
  destruct (desc_table ta td rd vd rc (S tc) vo r n (Some rps) (Some []) (Some []) (Some None) None None (vt_desc t) R) as (td' & D).
  destruct (head_run ta td' rd vd rc (S tc) vo (Some r) n (Some rps) (Some None) None None (vt_head t) [] [] G1 G2) as (ps & fs & A & B & C). cbn [app] in C.
  pose proof (names_nodup type_ok (heads t) fs B G3) as ND. destruct (rows_good value type_ok conv (heads t) fs (vt_body t) rs B G4 G5) as (a & m & E & L1 & L2 & K).
  exists (n, Table value a m (Some r) fs (par_dict (vo ++ rps ++ ps)) (par_exts (vo ++ rps ++ ps))), td', (Some ps), (Some None). split.
  - split; [reflexivity|]. exists (vo ++ rps), ps, fs, a, m. cbn [pl_params pl_table pl_res snd]. split; [exact F0|]. split; [exact A|]. split; [exact B|]. split; [exact ND|]. split; [exists rs; auto|]. now rewrite <- !app_assoc.
  - unfold table_events. cbn [VotModel.run]. destruct r as [|x r]; [congruence|]. cbn [VotModel.step truth] in *. cbn zeta in EN. rewrite EN. rewrite run_app, D, run_app, C. cbn [VotModel.run VotModel.step]. unfold process. rewrite (good_type_ok type_ok (heads t) fs B ND), E. reflexivity.
Qed.
(** the tables of a resource *)
Lemma tables_run d rn r used k ts ps : places_in d rn r used k ts ps -> rn <> [] -> Forall (good_table value type_ok conv) ts -> forall ta td rd vd rc vo rps tp nr, Forall2 param_rel (vo_params d ++ vr_params r) (vo ++ rps) ->
  (forall x, has x ta = true <-> In x used) -> exists es td' tp' nr', Forall2 entry_ok ps es /\
  run (State ta td rd vd rc k vo (Some rn) None (Some rps) tp None nr None None) (flat_map table_events ts) =
    Ok (State (fold_left (fun d e => put (fst e) (snd e) d) es ta) td' rd vd rc (k + List.length ts) vo (Some rn) None (Some rps) tp' None nr' None None).
Proof.
  intros P R. induction P as [used k|used k t ts n ps N P IH]; intros G ta td rd vd rc vo rps tp nr F U.
  - exists [], td, tp, nr. split; [constructor|]. cbn [flat_map fold_left List.length VotModel.run]. now rewrite Nat.add_0_r.
  - inversion G as [|? ? Gt Gs]; subst. destruct (table_run ta td rd vd rc k vo rn rps tp nr t n used R Gt N U _ F) as (e & td1 & tp1 & nr1 & E & S1).
    assert (U' : forall x, has x (put n (snd e) ta) = true <-> In x (n :: used)). { intros x. rewrite has_put, orb_true_iff, U, eqs. cbn [In]. intuition congruence. }
    destruct (IH Gs (put n (snd e) ta) td1 rd vd rc vo rps tp1 nr1 F U') as (es & td2 & tp2 & nr2 & Es & S2). exists (e :: es), td2, tp2, nr2. split; [now constructor|].
    cbn [flat_map]. rewrite run_app, S1. rewrite S2. cbn [fold_left List.length]. destruct E as (E1 & _). cbn [pl_name] in E1. rewrite E1. now rewrite Nat.add_succ_r.
Qed.
Lemma res_run d used i k rs ps : places_of d used i k rs ps -> Forall (fun r => Forall (good_param value conv) (vr_params r) /\ Forall (good_table value type_ok conv) (vr_tables r)) rs ->
  forall ta td rd vd vo rp tp nr, Forall2 param_rel (vo_params d) vo -> (forall x, has x ta = true <-> In x used) -> exists es td' rd' rp' tp' nr' rc' tc', Forall2 entry_ok ps es /\
  run (State ta td rd vd i k vo None None rp tp None nr None None) (flat_map res_events rs) = Ok (State (fold_left (fun d e => put (fst e) (snd e) d) es ta) td' rd' vd rc' tc' vo None None rp' tp' None nr' None None).
Proof.
  induction 1 as [used i k|used i k r rs rn ps ps' [Rn Nr] P P' IH]; intros G ta td rd vd vo rp tp nr F U.
  - exists [], td, rd, rp, tp, nr, i, k. split; [constructor|reflexivity].
  - inversion G as [|? ? [G1 G2] Gs]; subst. destruct (all_good _ _ _ (param_good value conv) G1) as (rps & Fr).
    destruct (desc_res ta td rd vd (S i) k vo rn (Some []) tp None nr None None (vr_desc r) Rn) as (rd1 & D).
    destruct (tables_run d rn r used k (vr_tables r) ps P Rn G2 ta td rd1 vd (S i) vo rps tp nr (Forall2_app F Fr) U) as (es & td1 & tp1 & nr1 & Es & S1).
    assert (KE : map fst es = map pl_name ps) by (clear - Es; induction Es as [|p e ps es [E _] F IH]; [reflexivity|]; cbn [map]; now rewrite IH, E).
    assert (U' : forall x, has x (fold_left (fun d e => put (fst e) (snd e) d) es ta) = true <-> In x (map pl_name ps ++ used)). { intros x. rewrite put_fold_keys, KE, U, in_app_iff. tauto. }
    destruct (IH Gs (fold_left (fun d e => put (fst e) (snd e) d) es ta) td1 rd1 vd vo (Some rps) tp1 nr1 F U') as (es' & td2 & rd2 & rp2 & tp2 & nr2 & rc2 & tc2 & Es' & S2).
    exists (es ++ es'), td2, rd2, rp2, tp2, nr2, rc2, tc2. split; [now apply Forall2_app|]. cbn [flat_map]. rewrite run_app. unfold res_events at 1. cbn [VotModel.run VotModel.step truth].
    replace (match vr_name r with Some x => x | None => L "res" ++ decimal (S i) end) with rn by (destruct (vr_name r); exact Nr).
    rewrite run_app, D, run_app, (params_res _ _ _ _ _ _ _ _ _ _ _ _ _ _ _ Rn Fr []), app_nil_l, run_app, S1. cbn [VotModel.run VotModel.step]. rewrite S2, fold_left_app. reflexivity.
Qed.

(** ** C100 *)
Lemma query_in {B} (f : table value -> B) s n t : assoc n (tables value s) = Some t -> query value f s (ByName n) = Ok (f t).
Proof. intros H. unfold query, table_name, has. rewrite H. now rewrite H. Qed.
Lemma dict_fields {V} (h : field -> V) fs f : NoDup (map fname fs) -> In f fs -> assoc (fname f) (fold_left (fun d f => put (fname f) (h f) d) fs []) = Some (h f).
Proof.
  intros N I'. assert (E : forall e, fold_left (fun d f => put (fname f) (h f) d) fs e = fold_left (fun d p => put (fst p) (snd p) d) (map (fun f => (fname f, h f)) fs) e). { clear. induction fs as [|f fs IH]; intros e; [reflexivity|]. cbn [fold_left map fst snd]. apply IH. }
  rewrite E. apply put_fold_in; [rewrite map_map; exact N|]. apply in_map_iff. eauto.
Qed.
Lemma f2_in {A B} (R : A -> B -> Prop) l m a : Forall2 R l m -> In a l -> exists b, In b m /\ R a b.
Proof. induction 1 as [|x y l m H F IH]; intros I'; [contradiction|]. destruct I' as [<-|I']; [exists y; split; [now left|exact H]|]. destruct (IH I') as (b & B1 & B2). exists b. split; [now right|exact B2]. Qed.
Lemma entry_right s p e : entry_ok p e -> assoc (pl_name p) (tables value s) = Some (snd e) -> table_right value conv s p.
Proof.
  intros (_ & ps0 & ps & fs & a & m & P0 & P & F & ND & (rs & R & L1 & L2 & K) & E) A. rewrite E in A. unfold table_right. split; [unfold getTableResource; now rewrite (query_in _ _ _ _ A)|]. split; [|split; [|split; [|split]]].
  - exists (map fname fs). split; [unfold getTableFieldNames; now rewrite (query_in _ _ _ _ A)|]. clear - F. induction F as [|n f hs fs (_ & N & _) F IH]; cbn [map]; constructor; auto.
  - eexists. split; [unfold getTableFieldDtypes; now rewrite (query_in _ _ _ _ A)|]. cbn [t_fields]. intros n x ty I' N T. destruct (f2_in _ _ _ n F I') as (f & If & (_ & Nf & (ty' & T1 & T2 & _) & _)). unfold attr in *. assert (x = fname f) by congruence. subst x.
    rewrite (dict_fields (fun f => type_name (ftype f)) fs f ND If). rewrite T1. cbn [type_name]. f_equal. now apply (field_type_fun n).
  - eexists. split; [unfold getTableFieldExtras; now rewrite (query_in _ _ _ _ A)|]. cbn [t_fields]. intros n x I' N. destruct (f2_in _ _ _ n F I') as (f & If & (_ & Nf & _ & S')). unfold attr in *. assert (x = fname f) by congruence. subst x.
    exists (fextra f). split; [|exact S']. now apply (dict_fields fextra).
  - exists rs, a, m. split; [exact R|]. split; [unfold getTableArray; now rewrite (query_in _ _ _ _ A)|]. split; [unfold getTableMask; now rewrite (query_in _ _ _ _ A)|]. auto.
  - intros k. eexists. split; [exact A|]. cbn [t_pars]. unfold par_dict. rewrite (params_dict value conv _ _ (Forall2_app P0 P) [] k). destruct (last_param _ k); reflexivity.
Qed.
Theorem C100_read : forall d l ps, document d l -> good value type_ok conv d -> places d ps -> NoDup (map pl_name ps) ->
  exists s, read value type_ok conv l = Ok s /\ (forall p, In p ps -> table_right value conv s p) /\ (forall n, In n (map fst (tables value s)) <-> In n (map pl_name ps)).
Proof.
  intros d l ps D (G1 & G2) P N. unfold read. rewrite run_ignored. unfold document in D. rewrite D. destruct (all_good _ _ _ (param_good value conv) G1) as (vo & F).
  unfold doc_events, initial. destruct (desc_doc [] [] [] [] 0 0 [] None None None None None None (vo_desc d)) as (vd & Ed). rewrite run_app, Ed, run_app, (params_doc _ _ _ _ _ _ _ _ _ _ _ _ _ _ F []), app_nil_l.
  destruct (res_run d [] 0 0 (vo_res d) ps P G2 [] [] [] vd vo None None None F) as (es & td & rd & rp & tp & nr & rc & tc & Es & S1); [intros x; cbn; intuition discriminate|]. rewrite S1. eexists. split; [reflexivity|].
  assert (KE : map fst es = map pl_name ps) by (clear - Es; induction Es as [|p e ps es [E _] F IH]; [reflexivity|]; cbn [map]; now rewrite IH, E).
  split.
  - intros p Ip. destruct (f2_in _ _ _ p Es Ip) as (e & Ie & R). apply (entry_right _ p e R). cbn [tables]. destruct R as (E & _). rewrite <- E. apply put_fold_in; [now rewrite KE|]. now destruct e.
  - intros n. cbn [tables]. rewrite <- KE, <- has_in, put_fold_keys. cbn. intuition discriminate.
Qed.
(** a document with one table: it is the default *)
Theorem C100_default : forall d l p, document d l -> good value type_ok conv d -> places d [p] -> exists s, read value type_ok conv l = Ok s /\ table_right value conv s p /\
  getTableArray value s (ByIndex 0) = getTableArray value s (ByName (pl_name p)) /\ getTableMask value s (ByIndex 0) = getTableMask value s (ByName (pl_name p)) /\ getTableFieldNames value s (ByIndex 0) = getTableFieldNames value s (ByName (pl_name p)).
Proof.
  intros d l p D G P. destruct (C100_read d l [p] D G P) as (s & R & T & K); [repeat constructor; auto|]. exists s. split; [exact R|]. split; [apply T; now left|].
  assert (E : exists t, tables value s = (pl_name p, t) :: []).
  { pose proof (T p (or_introl eq_refl)) as (_ & _ & _ & _ & _ & Q). destruct (Q []) as (t & At & _). assert (ND : NoDup (map fst (tables value s))).
    { clear - R. unfold read in R. assert (G : forall l s0 s, run s0 l = Ok s -> NoDup (map fst (tables value s0)) -> NoDup (map fst (tables value s))).
      { clear. induction l as [|e l IH]; intros s0 s H N; cbn [VotModel.run] in H; [now injection H as <-|]. destruct (step s0 e) as [s1| |] eqn:E; try discriminate. apply (IH s1 s H). destruct s0 as [x1 x2 x3 x4 x5 x6 x7 x8 x9 x10 x11 x12 x13 x14 x15]. cbn [VotModel.step tables] in *.
        repeat match type of E with
        | match ?x with _ => _ end = Ok _ => destruct x; try discriminate
        end; injection E as <-; cbn [tables]; auto. now apply put_nodup. }
      apply (G l _ s R). constructor. }
    destruct (tables value s) as [|(a, ta) [|(b, tb) q]].
    - discriminate.
    - destruct (K a) as [K1 _]. specialize (K1 (or_introl eq_refl)). destruct K1 as [<-|[]]. eauto.
    - exfalso. destruct (K a) as [K1 _]. destruct (K b) as [K2 _]. specialize (K1 (or_introl eq_refl)). specialize (K2 (or_intror (or_introl eq_refl))). destruct K1 as [K1|[]]. destruct K2 as [K2|[]]. inversion ND as [|? ? X _]. apply X. left. cbn [fst] in *. congruence. }
  destruct E as (t & E). unfold getTableArray, getTableMask, getTableFieldNames, query, table_name. rewrite E. cbn [map fst nth_error]. unfold has. cbn [assoc]. rewrite !eqb_refl. auto.
Qed.
End Run.
