(** * CosmoProps: C39 (the current cosmology and its module variables), C40 (the cosmology registry) *)
From Coq Require Import List Bool Arith String Ascii Lia.
From Verif Require Import PyBase CosmoModel.
Import ListNotations.
Open Scope nat_scope.

Section Cosmo.
  Context {V : Type}.
  Variable cdef : nat -> cls V.
  Variable base : string -> option V.   (* the other module variables (c, G, ...) *)
  Notation st := (st V). Notation attr := (attr cdef). Notation oparams := (oparams cdef).
  (** every parameter of every class can be read, whatever is set on the instance *)
  Definition readable : Prop := forall c f p, In p (params (cdef c)) -> view (cdef c) f p <> None.
  (** no parameter has the name of another module variable *)
  Definition no_clash : Prop := forall c p, In p (params (cdef c)) -> base p = None.
  (** the module variables with the names of o's parameters have o's values *)
  Definition in_sync (s : st) (o : obj V) : Prop := forall p, In p (oparams o) -> glob s p = attr o p.
  Definition current (s : st) (o : obj V) : Prop := nth_error (heap s) (cur s) = Some o.

  Lemma member_In n l : member n l = true <-> In n l.
  Proof. unfold member. rewrite existsb_exists. split; [intros (x & H & E); apply String.eqb_eq in E; now subst|]. intros H. exists n. split; [auto|apply String.eqb_refl]. Qed.
  Lemma member_false n l : member n l = false <-> ~ In n l.
  Proof. rewrite <- member_In. destruct (member n l); split; intros; congruence. Qed.
  Lemma export_ok o g : readable -> exists g', exportParams cdef o g = Ok g' /\ (forall p, In p (oparams o) -> g' p = attr o p) /\ (forall p, ~ In p (oparams o) -> g' p = g p).
  Proof.
    intros Hr. unfold exportParams. destruct (forallb _ _) eqn:F.
    - eexists. split; [reflexivity|]. split; intros p Hp; [apply member_In in Hp|apply member_false in Hp]; now rewrite Hp.
    - exfalso. assert (forallb (fun p => match attr o p with Some _ => true | None => false end) (oparams o) = true); [|congruence]. apply forallb_forall. intros p Hp. specialize (Hr (ocls o) (store o) p Hp). unfold CosmoModel.attr. destruct (view _ _ _); congruence.
  Qed.
  Definition inv (s : st) : Prop := exists o, current s o /\ (auto o = true -> in_sync s o) /\ (forall p, In p (oparams o) -> glob s p <> None) /\ (forall p, ~ In p (oparams o) -> glob s p = base p) /\
    (forall i o', nth_error (heap s) i = Some o' -> auto o' = true -> i = cur s).
  Lemma nth_set {A} (l : list A) i x j : nth_error (set_nth i x l) j = if Nat.eqb j i then match nth_error l i with Some _ => Some x | None => None end else nth_error l j.
  Proof.
    destruct (Nat.eqb_spec j i) as [->|N].
    - destruct (nth_error l i) eqn:E; [apply nth_error_set_nth_eq, nth_error_Some; congruence|]. apply nth_error_None. rewrite set_nth_length. now apply nth_error_None.
    - apply nth_error_set_nth_neq. auto.
  Qed.
  Lemma init_inv c0 r : readable -> no_clash -> inv (init cdef c0 base r).
  Proof.
    intros Hr Hc. unfold init. destruct (export_ok (Obj c0 (fun _ => None) false) base Hr) as (g & -> & A & B). eexists. split; [reflexivity|]. split; [discriminate|]. split; [|split].
    - intros p Hp. cbn [glob]. rewrite A by auto. apply Hr. exact Hp.
    - exact B.
    - intros [|[|i]] o' E; cbn in E; try discriminate. injection E as <-. discriminate.
  Qed.
  (** what setauto does *)
  Lemma setauto_spec s i b o : readable -> nth_error (heap s) i = Some o -> exists g, setauto cdef s i b = (St (set_nth i (Obj (ocls o) (store o) b) (heap s)) (cur s) g (reg s), Ok tt) /\
    (b = true -> (forall p, In p (oparams o) -> g p = attr o p) /\ (forall p, ~ In p (oparams o) -> g p = glob s p)) /\ (b = false -> g = glob s).
  Proof.
    intros Hr E. unfold setauto. rewrite E. destruct b.
    - destruct (export_ok (Obj (ocls o) (store o) true) (glob s) Hr) as (g & Q & A & B). cbn [glob heap cur reg]. rewrite Q. exists g. split; [reflexivity|]. split; [intros _; split; auto|discriminate].
    - exists (glob s). split; [reflexivity|]. split; [discriminate|auto].
  Qed.
  Lemma old_auto_off s o i : inv s -> current s o -> forall o', nth_error (set_nth (cur s) (Obj (ocls o) (store o) false) (heap s)) i = Some o' -> auto o' = false.
  Proof.
    intros (o1 & _ & _ & _ & _ & U) C o' E. rewrite nth_set in E. destruct (Nat.eqb_spec i (cur s)) as [->|N].
    - rewrite C in E. injection E as <-. reflexivity.
    - destruct (auto o') eqn:A; [|auto]. elim N. eapply U; eauto.
  Qed.
  (** the second half of choose, for a cosmology that exists *)
  Lemma switch_spec s i a o : readable -> no_clash -> inv s -> nth_error (heap s) i = Some o ->
    exists s', switch cdef s (Some i) a = (s', Ok i) /\ inv s' /\ cur s' = i /\ current s' (Obj (ocls o) (store o) a) /\ in_sync s' o /\ reg s' = reg s /\ List.length (heap s') = List.length (heap s) /\
      (forall j o', nth_error (heap s') j = Some o' -> exists o'', nth_error (heap s) j = Some o'' /\ ocls o'' = ocls o' /\ store o'' = store o').
  Proof.
    intros Hr Hn I Eo. assert (exists old, current s old /\ (forall p, ~ In p (oparams old) -> glob s p = base p)) as (old & C & D) by (destruct I as (x & X & _ & _ & Y & _); eauto). unfold switch. rewrite C. cbv zeta. cbn [cur].
    destruct (setauto_spec (St (heap s) (cur s) (removeParams cdef old (glob s)) (reg s)) (cur s) false old Hr C) as (g0 & -> & _ & G0). specialize (G0 eq_refl). subst g0. cbn [heap cur glob reg].
    pose proof (fun k => old_auto_off s old k I C) as Off. set (h1 := set_nth (cur s) (Obj (ocls old) (store old) false) (heap s)) in *.
    assert (forall j o', nth_error h1 j = Some o' -> exists o'', nth_error (heap s) j = Some o'' /\ ocls o'' = ocls o' /\ store o'' = store o') as H1.
    { intros j o' E. unfold h1 in E. rewrite nth_set in E. destruct (Nat.eqb_spec j (cur s)) as [->|N]; [|eauto]. rewrite C in E. injection E as <-. exists old. auto. }
    assert (exists o1, nth_error h1 i = Some o1) as (o1 & E1). { destruct (nth_error h1 i) eqn:Q; [eauto|]. exfalso. apply nth_error_None in Q. unfold h1 in Q. rewrite set_nth_length in Q. apply nth_error_None in Q. congruence. }
    destruct (H1 _ _ E1) as (o'' & E2 & K1 & S1). assert (o'' = o) as -> by congruence. rewrite E1. destruct (export_ok o1 (removeParams cdef old (glob s)) Hr) as (g1 & -> & A1 & B1).
    destruct (setauto_spec (St h1 i g1 (reg s)) i a o1 Hr E1) as (g2 & -> & T & F). cbn [heap cur glob reg] in *. eexists. split; [reflexivity|].
    assert (oparams o1 = oparams o) as Po by (unfold CosmoModel.oparams; now rewrite K1). assert (forall p, attr o1 p = attr o p) as Ao by (intros; unfold CosmoModel.attr; now rewrite K1, S1).
    assert (forall p, In p (oparams o1) -> g2 p = attr o1 p) as A2. { destruct a; [apply T; auto|rewrite F; auto]. }
    assert (forall p, ~ In p (oparams o1) -> g2 p = base p) as B2.
    { intros p Hp. transitivity (g1 p); [destruct a; [apply T; auto|rewrite F; auto]|]. rewrite B1 by auto. unfold removeParams. destruct (member p (oparams old)) eqn:M.
      - apply member_In in M. symmetry. eapply Hn, M.
      - apply member_false in M. apply D; auto. }
    assert (nth_error (set_nth i (Obj (ocls o1) (store o1) a) h1) i = Some (Obj (ocls o) (store o) a)) as Ci by (rewrite nth_set, Nat.eqb_refl, E1; congruence).
    split; [|split; [reflexivity|split; [exact Ci|split; [intros p Hp; cbn [glob]; rewrite <- Ao; apply A2; now rewrite Po|split; [reflexivity|split]]]]].
    - exists (Obj (ocls o) (store o) a). split; [exact Ci|]. assert (forall p, In p (oparams o1) <-> In p (oparams (Obj (ocls o) (store o) a))) as Q by (intros p; rewrite Po; reflexivity). split; [|split; [|split]].
      + intros _ p Hp. cbn [glob]. apply Q in Hp. rewrite A2 by auto. apply Ao.
      + intros p Hp. cbn [glob]. apply Q in Hp. rewrite A2 by auto. apply Hr. exact Hp.
      + intros p Hp. apply B2. rewrite Q. exact Hp.
      + intros j o' Ej Aj. cbn [heap cur] in *. rewrite nth_set in Ej. destruct (Nat.eqb_spec j i); [auto|]. apply Off in Ej. congruence.
    - cbn [heap]. rewrite set_nth_length. unfold h1. apply set_nth_length.
    - intros j o' Ej. cbn [heap] in Ej. rewrite nth_set in Ej. destruct (Nat.eqb_spec j i) as [->|]; [rewrite E1 in Ej; injection Ej as <-; exists o; auto|auto].
  Qed.
  Lemma register_inv s c n : inv s -> inv (register cdef s c n). Proof. intros I. exact I. Qed.
  Lemma new_inv s c i : inv s -> inv (fst (new s c i)).
  Proof.
    intros (o & C & A & B & D & U). exists o. unfold current, new in *. cbn [fst heap cur glob reg] in *. assert (cur s < List.length (heap s)) by (apply nth_error_Some; congruence).
    split; [rewrite nth_error_app1; auto|]. split; [exact A|]. split; [exact B|]. split; [exact D|]. intros j o' E Ho. destruct (lt_dec j (List.length (heap s))) as [L|L].
    - rewrite nth_error_app1 in E by auto. eauto.
    - rewrite nth_error_app2 in E by lia. destruct (j - List.length (heap s)) as [|[|k]]; cbn in E; try discriminate. injection E as <-. discriminate.
  Qed.
  Lemma setattr_inv s i n v : readable -> inv s -> inv (fst (setattr cdef s i n v)) /\ match nth_error (heap s) i with
    | Some o => settable (cdef (ocls o)) n = true -> snd (setattr cdef s i n v) = Ok tt /\ let o' := Obj (ocls o) (upd (store o) n v) (auto o) in let s' := fst (setattr cdef s i n v) in
        heap s' = set_nth i o' (heap s) /\ cur s' = cur s /\ reg s' = reg s /\ (if auto o then i = cur s /\ in_sync s' o' else glob s' = glob s)
    | None => True end.
  Proof.
    intros Hr I. unfold setattr, setobj. destruct (nth_error (heap s) i) as [o|] eqn:Eo; [|auto]. destruct (settable (cdef (ocls o)) n) eqn:Se; cbn [negb]; [|split; [exact I|discriminate]].
    destruct I as (oc & C & A & B & D & U). set (o1 := Obj (ocls o) (upd (store o) n v) (auto o)). cbv zeta. fold o1. cbn [heap cur glob reg]. change (auto o1) with (auto o). destruct (auto o) eqn:Au.
    - assert (i = cur s) as -> by (eapply U; eauto). assert (oc = o) as -> by (unfold current in C; congruence). destruct (export_ok o1 (glob s) Hr) as (g & Q & A1 & B1). rewrite Q. cbn [fst snd heap cur glob reg]. split; [|intros _; split; [auto|split; [auto|split; [auto|split; [auto|split; [auto|exact A1]]]]]].
      exists o1. split; [unfold current; cbn [heap cur]; rewrite nth_set, Nat.eqb_refl, Eo; reflexivity|]. split; [intros _; exact A1|]. split; [|split].
      + intros p Hp. cbn [glob]. rewrite A1 by auto. apply Hr. exact Hp.
      + intros p Hp. cbn [glob]. rewrite B1 by auto. apply D. exact Hp.
      + intros j o' E Ho. cbn [heap cur] in *. rewrite nth_set in E. destruct (Nat.eqb_spec j (cur s)); [auto|eauto].
    - cbn [fst snd heap cur glob reg]. split; [|intros _; auto]. unfold current in C. destruct (Nat.eq_dec i (cur s)) as [->|N].
      + assert (oc = o) as -> by congruence. exists o1. split; [unfold current; cbn [heap cur]; rewrite nth_set, Nat.eqb_refl, Eo; reflexivity|]. split; [intros Q; discriminate Q|]. split; [exact B|]. split; [exact D|].
        intros j o' E Ho. cbn [heap cur] in *. rewrite nth_set in E. destruct (Nat.eqb_spec j (cur s)); [auto|eauto].
      + exists oc. split; [unfold current; cbn [heap cur]; rewrite nth_set; destruct (Nat.eqb_spec (cur s) i); [congruence|auto]|]. split; [exact A|]. split; [exact B|]. split; [exact D|].
        intros j o' E Ho. cbn [heap cur] in *. rewrite nth_set in E. destruct (Nat.eqb_spec j i) as [->|]; [rewrite Eo in E; injection E as <-; discriminate|eauto].
  Qed.
  Lemma neither_spec s a : readable -> no_clash -> inv s -> exists s', switch cdef s None a = (s', Raise NameError) /\ inv s' /\ cur s' = cur s /\ reg s' = reg s /\ exists o, current s o /\ current s' (Obj (ocls o) (store o) false).
  Proof.
    intros Hr Hn I. assert (exists old, current s old /\ (forall p, ~ In p (oparams old) -> glob s p = base p)) as (old & C & D) by (destruct I as (x & X & _ & _ & Y & _); eauto). unfold switch. rewrite C. cbv zeta. cbn [cur].
    destruct (setauto_spec (St (heap s) (cur s) (removeParams cdef old (glob s)) (reg s)) (cur s) false old Hr C) as (g0 & -> & _ & G0). specialize (G0 eq_refl). subst g0. cbn [heap cur glob reg].
    pose proof (fun k => old_auto_off s old k I C) as Off. destruct (export_ok old (removeParams cdef old (glob s)) Hr) as (g1 & -> & A1 & B1). eexists. split; [reflexivity|].
    assert (nth_error (set_nth (cur s) (Obj (ocls old) (store old) false) (heap s)) (cur s) = Some (Obj (ocls old) (store old) false)) as Ci by (rewrite nth_set, Nat.eqb_refl, C; auto).
    split; [|split; [auto|split; [auto|exists old; split; [exact C|exact Ci]]]]. exists (Obj (ocls old) (store old) false). split; [exact Ci|]. split; [discriminate|]. split; [|split].
    - intros p Hp. cbn [glob]. rewrite A1 by exact Hp. apply Hr. exact Hp.
    - intros p Hp. cbn [glob]. rewrite B1 by exact Hp. unfold removeParams. destruct (member p (oparams old)) eqn:M; [apply member_In in M; elim Hp; exact M|]. apply D. exact Hp.
    - intros j o' E Ho. cbn [heap cur] in *. apply Off in E. congruence.
  Qed.
  Lemma update_spec s : readable -> inv s -> exists s', update cdef s = (s', Ok tt) /\ inv s' /\ heap s' = heap s /\ cur s' = cur s /\ reg s' = reg s /\ forall o, current s o -> in_sync s' o.
  Proof.
    intros Hr (o & C & A & B & D & U). unfold update. rewrite C. destruct (export_ok o (glob s) Hr) as (g & -> & A1 & B1). eexists. split; [reflexivity|]. cbn [heap cur reg]. split; [|do 3 (split; [auto|]); intros o' C'; unfold current in *; assert (o' = o) as -> by congruence; exact A1].
    exists o. split; [exact C|]. split; [intros _; exact A1|]. split; [intros p Hp; cbn [glob]; rewrite A1 by auto; now apply Hr|]. split; [intros p Hp; cbn [glob]; rewrite B1 by auto; auto|exact U].
  Qed.
  Lemma choose_inv s w a i : readable -> no_clash -> inv s -> inv (fst (choose cdef s w a i)).
  Proof.
    intros Hr Hn I. destruct w as [n|j|]; cbn [choose].
    - destruct (assoc (reg s) (lower n)) as [c|]; [|exact I]. assert (nth_error (heap (fst (new s c i))) (List.length (heap s)) = Some (Obj c i false)) as E by (cbn [new fst heap]; rewrite nth_error_app2, Nat.sub_diag by lia; reflexivity).
      destruct (switch_spec _ _ a _ Hr Hn (new_inv s c i I) E) as (s' & Q & I' & _). cbn [new fst] in Q. unfold new. rewrite Q. exact I'.
    - destruct (nth_error (heap s) j) as [o|] eqn:E; [|exact I]. destruct (existsb _ _).
      + destruct (switch_spec _ _ a _ Hr Hn I E) as (s' & -> & I' & _). exact I'.
      + destruct (switch_spec (register cdef s (ocls o) None) j a o Hr Hn (register_inv s (ocls o) None I) E) as (s' & -> & I' & _). exact I'.
    - destruct (neither_spec s a Hr Hn I) as (s' & -> & I' & _). exact I'.
  Qed.
  Theorem run_inv s l : readable -> no_clash -> inv s -> inv (run cdef s l).
  Proof.
    intros Hr Hn. revert s. induction l as [|o l IH]; intros s I; [exact I|]. cbn [run fold_left]. apply IH. destruct o as [c i|i n v|w a i| |c n]; cbn [step].
    - now apply new_inv.
    - now apply setattr_inv.
    - now apply choose_inv.
    - destruct (update_spec s Hr I) as (s' & -> & I' & _). exact I'.
    - now apply register_inv.
  Qed.
  Definition reachable (s : st) : Prop := exists c0 r l, s = run cdef (init cdef c0 base r) l.
  Lemma reach_inv s : readable -> no_clash -> reachable s -> inv s.
  Proof. intros Hr Hn (c0 & r & l & ->). apply run_inv; auto. now apply init_inv. Qed.

  (** ** C39 *)
  (** After any history: the parameters of the current cosmology are module variables, those of earlier ones are gone and all other variables
      are untouched; a current cosmology with autoupdate agrees with the module variables, and no other cosmology has autoupdate on. *)
  Theorem C39_module_variables : readable -> no_clash -> forall s, reachable s -> exists o, current s o /\
    (forall p, In p (oparams o) -> glob s p <> None) /\ (forall p, ~ In p (oparams o) -> glob s p = base p) /\
    (auto o = true -> in_sync s o) /\ (forall i o', nth_error (heap s) i = Some o' -> auto o' = true -> i = cur s).
  Proof. intros Hr Hn s R. destruct (reach_inv s Hr Hn R) as (o & C & A & B & D & U). exists o. auto. Qed.
  (** choose_cosmology makes the cosmology current, exports its parameters, sets its autoupdate as asked, and changes nothing else of any cosmology.
      By name it makes a new instance of the registered class; an unknown name changes nothing. *)
  Theorem C39_choose : readable -> no_clash -> forall s a i, reachable s ->
    (forall j o, nth_error (heap s) j = Some o -> exists s', choose cdef s (ByObj j) a i = (s', Ok j) /\ cur s' = j /\ current s' (Obj (ocls o) (store o) a) /\ in_sync s' o /\
       List.length (heap s') = List.length (heap s) /\ (forall k o', nth_error (heap s') k = Some o' -> exists o'', nth_error (heap s) k = Some o'' /\ ocls o'' = ocls o' /\ store o'' = store o')) /\
    (forall n c, assoc (reg s) (lower n) = Some c -> exists s', choose cdef s (ByName n) a i = (s', Ok (List.length (heap s))) /\ cur s' = List.length (heap s) /\ current s' (Obj c i a) /\ in_sync s' (Obj c i a) /\
       List.length (heap s') = S (List.length (heap s))) /\
    (forall n, assoc (reg s) (lower n) = None -> choose cdef s (ByName n) a i = (s, Raise KeyError)).
  Proof.
    intros Hr Hn s a i R. pose proof (reach_inv s Hr Hn R) as I. split; [|split].
    - intros j o E. cbn [choose]. rewrite E. destruct (existsb _ _).
      + destruct (switch_spec _ _ a _ Hr Hn I E) as (s' & Q & _ & P1 & P2 & P3 & _ & P4 & P5). exists s'. auto 8.
      + destruct (switch_spec (register cdef s (ocls o) None) j a o Hr Hn (register_inv s (ocls o) None I) E) as (s' & Q & _ & P1 & P2 & P3 & _ & P4 & P5). exists s'. auto 8.
    - intros n c E. cbn [choose]. rewrite E. assert (nth_error (heap (fst (new s c i))) (List.length (heap s)) = Some (Obj c i false)) as E' by (cbn [new fst heap]; rewrite nth_error_app2, Nat.sub_diag by lia; reflexivity).
      destruct (switch_spec _ _ a _ Hr Hn (new_inv s c i I) E') as (s' & Q & _ & P1 & P2 & P3 & _ & P4 & _). cbn [new fst heap ocls store] in *. exists s'. unfold new. split; [exact Q|]. split; [exact P1|]. split; [exact P2|]. split; [exact P3|]. rewrite P4, app_length. cbn. lia.
    - intros n E. cbn [choose]. now rewrite E.
  Qed.
  (** update_cosmology exports the current values. *)
  Theorem C39_update : readable -> no_clash -> forall s, reachable s -> exists s', update cdef s = (s', Ok tt) /\ heap s' = heap s /\ cur s' = cur s /\ forall o, current s o -> in_sync s' o.
  Proof. intros Hr Hn s R. destruct (update_spec s Hr (reach_inv s Hr Hn R)) as (s' & Q & _ & A & B & _ & C). exists s'. auto. Qed.
  (** Assigning an attribute changes that attribute of that instance only; module variables follow iff the instance has autoupdate on (so is current). *)
  Theorem C39_setattr : readable -> no_clash -> forall s i o n v, reachable s -> nth_error (heap s) i = Some o -> settable (cdef (ocls o)) n = true ->
    exists s', setattr cdef s i n v = (s', Ok tt) /\ cur s' = cur s /\
      (exists o', nth_error (heap s') i = Some o' /\ ocls o' = ocls o /\ auto o' = auto o /\ (forall m, store o' m = if String.eqb m n then Some v else store o m) /\ (auto o = true -> i = cur s /\ in_sync s' o')) /\
      (forall j, j <> i -> nth_error (heap s') j = nth_error (heap s) j) /\ (auto o = false -> glob s' = glob s).
  Proof.
    intros Hr Hn s i o n v R E Se. destruct (setattr_inv s i n v Hr (reach_inv s Hr Hn R)) as (_ & Q). rewrite E in Q. destruct (Q Se) as (Q1 & Q2 & Q3 & _ & Q4). destruct (setattr cdef s i n v) as (s', r). cbn [fst snd] in *. subst r. exists s'. split; [reflexivity|]. split; [auto|]. rewrite Q2. split; [|split].
    - exists (Obj (ocls o) (upd (store o) n v) (auto o)). split; [rewrite nth_set, Nat.eqb_refl, E; auto|]. cbn [ocls auto store]. do 2 (split; [auto|]). split; [reflexivity|]. intros A. rewrite A in *. exact Q4.
    - intros j Hj. rewrite nth_set. destruct (Nat.eqb_spec j i); [congruence|auto].
    - intros A. now rewrite A in Q4.
  Qed.
  (** A choice that is neither a name nor a Cosmology raises, but autoupdate of the current cosmology is lost. *)
  Theorem C39_neither_refuted : readable -> no_clash -> forall s a i, reachable s -> exists s' o, choose cdef s Neither a i = (s', Raise NameError) /\ cur s' = cur s /\ current s o /\ current s' (Obj (ocls o) (store o) false).
  Proof. intros Hr Hn s a i R. destruct (neither_spec s a Hr Hn (reach_inv s Hr Hn R)) as (s' & Q & _ & A & _ & o & B & C). exists s', o. auto. Qed.

  (** ** C40 *)
  Lemma assoc_set l n c m : assoc (dict_set l n c) m = if String.eqb m n then Some c else assoc l m.
  Proof.
    unfold dict_set. cbn [assoc]. rewrite (String.eqb_sym n m). destruct (String.eqb_spec m n) as [->|N]; [auto|]. induction l as [|(k, d) l IH]; [auto|]. cbn [filter fst]. destruct (String.eqb_spec k n) as [->|M]; cbn [negb].
    - rewrite IH. cbn [assoc]. destruct (String.eqb_spec n m); [congruence|auto].
    - cbn [assoc]. destruct (String.eqb_spec k m); [auto|exact IH].
  Qed.
  (** Registering a class makes it what choose_cosmology finds by any capitalisation of the registered name, and what get_cosmology finds by
      the registered name; all other names keep their meaning. *)
  Theorem C40_register : forall (s : st) c name, let nm := match name with Some (String a r) => String a r | _ => cname (cdef c) end in let s' := register cdef s c name in
    get_class s' (regname nm) = Ok c /\ (forall x, lower x = regname nm -> assoc (reg s') (lower x) = Some c) /\
    (forall x, x <> regname nm -> get_class s' x = get_class s x) /\ (forall x, lower x <> regname nm -> assoc (reg s') (lower x) = assoc (reg s) (lower x)) /\
    heap s' = heap s /\ cur s' = cur s /\ glob s' = glob s.
  Proof.
    intros s c name nm s'. unfold s', register, get_class. fold nm. cbn [reg heap cur glob]. split; [rewrite assoc_set, String.eqb_refl; auto|]. split; [intros x ->; rewrite assoc_set, String.eqb_refl; auto|]. split; [|split; [|auto]].
    - intros x Hx. rewrite assoc_set. destruct (String.eqb_spec x (regname nm)); [congruence|auto].
    - intros x Hx. rewrite assoc_set. destruct (String.eqb_spec (lower x) (regname nm)); [congruence|auto].
  Qed.
End Cosmo.
Print Assumptions C39_module_variables. Print Assumptions C39_choose. Print Assumptions C39_update. Print Assumptions C39_setattr. Print Assumptions C39_neither_refuted. Print Assumptions C40_register.

(** ** names *)
Fixpoint occurs (pat s : string) : bool := prefix pat s || match s with EmptyString => false | String _ r => occurs pat r end.
Lemma remove_none pat s : occurs pat s = false -> remove_sub pat s 0 = s.
Proof. induction s as [|a s IH]; [auto|]. cbn [occurs remove_sub]. intros H. apply orb_false_iff in H. destruct H as (-> & H). now rewrite IH. Qed.
Lemma lower_ascii_idem a : lower_ascii (lower_ascii a) = lower_ascii a.
Proof. destruct a as [[] [] [] [] [] [] [] []]; reflexivity. Qed.
Lemma lower_idem s : lower (lower s) = lower s. Proof. induction s as [|a s IH]; [auto|]. cbn [lower]. now rewrite lower_ascii_idem, IH. Qed.
Lemma lower_app s t : lower (s ++ t) = (lower s ++ lower t)%string. Proof. induction s as [|a s IH]; [auto|]. cbn [lower append]. now rewrite IH. Qed.
Lemma remove_suffix s : occurs "cosmology" (s ++ "cosmolog") = false -> remove_sub "cosmology" (s ++ "cosmology") 0 = s.
Proof.
  induction s as [|a s IH]; [reflexivity|]. intros H. cbn [append occurs] in H. apply orb_false_iff in H. destruct H as (P & H). cbn [append remove_sub].
  assert (forall p x, prefix p (x ++ "cosmolog") = false -> prefix p (x ++ "cosmology") = true -> prefix p (x ++ "cosmology") = true /\ String.length p = String.length x + 9) as K.
  { clear. intros p. induction p as [|b p IHp]; intros [|c x] A B; cbn [append prefix] in *; try discriminate.
    - split; [auto|]. destruct (ascii_dec b "c"); [|discriminate]. cbn [String.length]. revert A B. repeat (let q := fresh in let e := fresh in destruct p as [|q p]; cbn [prefix]; [discriminate|]; destruct (ascii_dec _ _) as [e|e]; [|discriminate]; clear e). destruct p; [reflexivity|discriminate].
    - destruct (ascii_dec b c) as [->|]; [|discriminate]. destruct (IHp x A B) as (_ & L). split; [auto|]. cbn [String.length]. lia. }
  destruct (prefix "cosmology" (String a (s ++ "cosmology"))) eqn:Q; [|now rewrite IH]. exfalso. destruct (K "cosmology"%string (String a s) P Q) as (_ & L). cbn [String.length] in L. lia.
Qed.
(** A class is found by the name it is registered under, in any capitalisation, if that does not contain "cosmology"; without an explicit name, by
    its class name without the suffix "Cosmology". *)
Theorem C40_names : forall V (cdef : nat -> cls V) s c x, 
  (forall name, name <> EmptyString -> occurs "cosmology" (lower name) = false -> lower x = lower name -> assoc (reg (register cdef s c (Some name))) (lower x) = Some c) /\
  (forall stem, cname (cdef c) = (stem ++ "Cosmology")%string -> occurs "cosmology" (lower stem ++ "cosmolog") = false -> lower x = lower stem -> assoc (reg (register cdef s c None)) (lower x) = Some c).
Proof.
  intros V cdef s c x. split.
  - intros name Hn Ho Hx. destruct (C40_register cdef s c (Some name)) as (_ & A & _). apply A. destruct name as [|b name]; [congruence|]. unfold regname. now rewrite remove_none.
  - intros stem Hc Ho Hx. destruct (C40_register cdef s c None) as (_ & A & _). apply A. rewrite Hc. unfold regname. rewrite lower_app. change (lower "Cosmology") with "cosmology"%string. rewrite remove_suffix by auto. exact Hx.
Qed.
Print Assumptions C40_names.
Example C40_ex : occurs "cosmology" (lower "WMAP7" ++ "cosmolog") = false /\ regname "WMAP7Cosmology" = "wmap7"%string. Proof. split; reflexivity. Qed.
(** get_cosmology is case sensitive, and neither function accepts the class name. *)
Definition dcls (nm : string) (ps : list string) : cls nat := Cls nm ps (fun (f : string -> option nat) n => match f n with Some v => Some v | None => Some 0 end) (fun _ => true).
Definition ddef (c : nat) : cls nat := match c with 0 => dcls "SCDMCosmology" ["H0"; "omegaM"]%string | 1 => dcls "WMAP7Cosmology" ["H0"; "t0"]%string | _ => Cls "Broken" ["q"%string] (fun f n => f n) (fun _ => true) end.
Theorem C40_case_refuted : let s := register ddef (init ddef 0 (fun _ => None) []) 1 None in
  get_class s "WMAP7" = Raise KeyError /\ get_class s "wmap7" = Ok 1 /\ (exists s', choose ddef s (ByName "WMAP7") true (fun _ => None) = (s', Ok 1)) /\
  choose ddef s (ByName "WMAP7Cosmology") true (fun _ => None) = (s, Raise KeyError).
Proof. repeat split; eexists; reflexivity. Qed.
(** A cosmology with a parameter it lacks: choose_cosmology with autoupdate=False returns it as if it were chosen, but the old one stays current. *)
Theorem C39_unreadable_refuted : let s := fst (new (init ddef 0 (fun _ => None) []) 2 (fun _ => None)) in
  exists s', choose ddef s (ByObj 1) false (fun _ => None) = (s', Ok 1) /\ cur s' = 0 /\ glob s' "q"%string = None.
Proof. eexists. split; [reflexivity|]. split; reflexivity. Qed.
(** the hypotheses of C39 hold for the first two classes, and a history does something *)
Definition ddef2 (c : nat) : cls nat := match c with 0 => ddef 0 | _ => ddef 1 end.
Example C39_ex : readable ddef2 /\ no_clash ddef2 (fun n => if String.eqb n "G" then Some 6 else None) /\
  let s := run ddef2 (init ddef2 0 (fun n => if String.eqb n "G" then Some 6 else None) []) [Register 1 None; Choose (ByName "Wmap7") true (fun _ => None); SetAttr 1 "t0" 13; SetAttr 0 "H0" 7] in
  map (glob s) ["G"; "H0"; "t0"; "omegaM"]%string = [Some 6; Some 0; Some 13; None] /\ cur s = 1.
Proof.
  split; [|split; [|split; reflexivity]].
  - intros [|c] f p _; cbn; destruct (f p); discriminate.
  - intros [|c] p H; cbn in H; destruct H as [<-|[<-|[]]]; reflexivity.
Qed.
