(** * CfgEdit: changing a configuration file (C105) *)
From Coq Require Import List Bool Arith Ascii String Lia.
From Verif Require Import PyBase PubModel IoColumns CfgModel CfgRx CfgLine CfgRead CfgFile.
Import ListNotations.

(** the value of a key *)
Fixpoint value_of (k : str) (l : list (str * value * str)) : option value := match l with [] => None | (k', v, _) :: r => if str_eqb k k' then Some v else value_of k r end.
Definition at_key (k : str) (o : cfg) : option value := value_of k (said o).
Lemma str_eqb_same k : str_eqb k k = true. Proof. now apply str_eqb_spec. Qed.
Lemma str_eqb_diff k k' : k <> k' -> str_eqb k k' = false. Proof. intros N. destruct (str_eqb k k') eqn:E; [|reflexivity]. apply str_eqb_spec in E. contradiction. Qed.
Lemma at_assign k v es k' : value_of k' (map (fun e => (ekey e, evalue e, einline e)) (assign k v es)) = if str_eqb k' k then Some v else value_of k' (map (fun e => (ekey e, evalue e, einline e)) es).
Proof.
  induction es as [|e es IH]; cbn [assign map value_of ekey evalue einline]; [destruct (str_eqb k' k); reflexivity|]. destruct (str_eqb k (ekey e)) eqn:E.
  - apply str_eqb_spec in E. subst. cbn [map value_of ekey evalue einline]. destruct (str_eqb k' (ekey e)); reflexivity.
  - cbn [map value_of]. rewrite IH. destruct (str_eqb k' (ekey e)) eqn:E2; [|reflexivity]. apply str_eqb_spec in E2. subst. rewrite str_eqb_diff; [reflexivity|]. intros H. rewrite H, str_eqb_same in E. discriminate.
Qed.
Lemma at_set k v o k' : at_key k' (set_item k v o) = if str_eqb k' k then Some v else at_key k' o.
Proof. apply at_assign. Qed.
Lemma at_filter k es k' : value_of k' (map (fun e => (ekey e, evalue e, einline e)) (filter (fun e => negb (str_eqb k (ekey e))) es)) = if str_eqb k' k then None else value_of k' (map (fun e => (ekey e, evalue e, einline e)) es).
Proof.
  induction es as [|e es IH]; cbn [filter map value_of]; [destruct (str_eqb k' k); reflexivity|]. destruct (str_eqb k (ekey e)) eqn:E; cbn [negb map value_of]; rewrite IH.
  - apply str_eqb_spec in E. subst. destruct (str_eqb k' (ekey e)); reflexivity.
  - destruct (str_eqb k' (ekey e)) eqn:E2; [|reflexivity]. apply str_eqb_spec in E2. subst. rewrite str_eqb_diff; [reflexivity|]. intros H. rewrite H, str_eqb_same in E. discriminate.
Qed.
Lemma assign_keys k v es : map ekey (assign k v es) = if has_key k es then map ekey es else map ekey es ++ [k].
Proof.
  unfold has_key. induction es as [|e es IH]; cbn [assign map existsb]; [reflexivity|]. destruct (str_eqb k (ekey e)) eqn:E; cbn [map orb ekey]; [reflexivity|]. rewrite IH. destruct (existsb (fun e0 => str_eqb k (ekey e0)) es); reflexivity.
Qed.
Lemma has_key_in k es : has_key k es = true <-> In k (map ekey es).
Proof.
  unfold has_key. rewrite existsb_exists, in_map_iff. split.
  - intros (e & I' & E). apply str_eqb_spec in E. eauto.
  - intros (e & <- & I'). exists e. split; [exact I'|apply str_eqb_same].
Qed.
Lemma assign_in k v es e : In e (assign k v es) -> In e es \/ e = Entry k v [] [] \/ exists e0, In e0 es /\ ekey e0 = k /\ e = Entry k v (ecomments e0) (einline e0).
Proof.
  induction es as [|e0 es IH]; cbn [assign]; [intros [<-|[]]; auto|]. destruct (str_eqb k (ekey e0)) eqn:E.
  - apply str_eqb_spec in E. intros [<-|I']; [right; right; exists e0; subst; repeat split; now left|left; now right].
  - intros [<-|I']; [left; now left|]. destruct (IH I') as [H|[H|(e1 & H1 & H2)]]; [left; now right|auto|]. right. right. exists e1. split; [now right|exact H2].
Qed.
Lemma assign_comments k v es : List.concat (map ecomments (assign k v es)) = List.concat (map ecomments es).
Proof. induction es as [|e es IH]; cbn [assign map List.concat ecomments]; [reflexivity|]. destruct (str_eqb k (ekey e)); cbn [map List.concat ecomments]; [reflexivity|now rewrite IH]. Qed.
Lemma safe_set k v o : safe o -> safe_key k -> safe_value v -> safe (set_item k v o).
Proof.
  intros (Nd & Fe & Fc & Sd) Sk Sv. unfold set_item, safe, all_comments. cbn [CfgModel.initial CfgModel.entries CfgModel.final CfgModel.indent]. split; [|split; [|split; [rewrite assign_comments; exact Fc|exact Sd]]].
  - rewrite assign_keys. destruct (has_key k (entries o)) eqn:E; [exact Nd|].
    assert (~ In k (map ekey (entries o))) as N by (rewrite <- has_key_in; congruence). revert Nd N. generalize (map ekey (entries o)). clear. intros l Nd N. induction Nd as [|x l Nx Nd IH]; cbn [app]; [constructor; [intros []|constructor]|]. constructor; [|apply IH; intros H; apply N; now right]. intros I'. apply in_app_or in I'. destruct I' as [I'|[<-|[]]]; [contradiction|]. apply N. now left.
  - apply Forall_forall. intros e I'. rewrite Forall_forall in Fe. apply assign_in in I'. destruct I' as [I'|[-> |(e0 & I' & _ & ->)]]; [now apply Fe| |]; (split; [exact Sk|split; [exact Sv|]]).
    + split; [split; intros []|]. split; [intros []|now left].
    + destruct (Fe e0 I') as (_ & _ & H). exact H.
Qed.
Lemma filter_keys k es : map ekey (filter (fun e => negb (str_eqb k (ekey e))) es) = filter (fun x => negb (str_eqb k x)) (map ekey es).
Proof. induction es as [|e es IH]; cbn [filter map]; [reflexivity|]. destruct (str_eqb k (ekey e)); cbn [negb map]; now rewrite IH. Qed.
Lemma safe_del k o o' : safe o -> del_item k o = Ok o' -> safe o'.
Proof.
  intros (Nd & Fe & Fc & Sd). unfold del_item. destruct (has_key k (entries o)); intros E; inversion E; subst. unfold safe, all_comments in *. cbn [CfgModel.initial CfgModel.entries CfgModel.final CfgModel.indent]. split; [|split; [|split; [|exact Sd]]].
  - rewrite filter_keys. now apply NoDup_filter.
  - apply Forall_forall. intros e I'. apply filter_In in I'. rewrite Forall_forall in Fe. now apply Fe.
  - apply Forall_app in Fc. destruct Fc as (F1 & F2). apply Forall_app in F2. destruct F2 as (F2 & F3). apply Forall_app. split; [exact F1|]. apply Forall_app. split; [|exact F3].
    apply Forall_forall. intros l I'. apply in_concat in I'. destruct I' as (c & Ic & Il). apply in_map_iff in Ic. destruct Ic as (e & <- & Ie). apply filter_In in Ie. rewrite Forall_forall in F2. apply F2. apply in_concat. exists (ecomments e). split; [|exact Il]. apply in_map. tauto.
Qed.
(** C105: set a key, write, read: that key has the new value and every other key its old one; nothing is lost of the comments *)
Theorem set_then_read o k v : safe o -> safe_key k -> safe_value v -> exists txt o', dump (set_item k v o) = Ok txt /\ load (Some txt) = Done o' /\ safe o' /\ at_key k o' = Some v /\ (forall k', k' <> k -> at_key k' o' = at_key k' o) /\ remarks o' = remarks o.
Proof.
  intros S Sk Sv. destruct (written_then_read (set_item k v o) (safe_set k v o S Sk Sv)) as (txt & o' & D & Ld & E & R & S'). exists txt, o'. split; [exact D|]. split; [exact Ld|]. split; [exact S'|]. unfold at_key. rewrite E. fold (at_key k (set_item k v o)). rewrite at_set, str_eqb_same. split; [reflexivity|]. split.
  - intros k' N. fold (at_key k' (set_item k v o)). now rewrite at_set, str_eqb_diff.
  - rewrite R. unfold remarks, all_comments, set_item. cbn [CfgModel.initial CfgModel.entries CfgModel.final]. now rewrite assign_comments.
Qed.
(** C105: delete a key, write, read: that key is gone and every other key has its value; a key that is not there is a KeyError *)
Theorem delete_then_read o k : safe o -> (at_key k o = None /\ del_item k o = Raise KeyError) \/ exists o1 txt o', at_key k o <> None /\ del_item k o = Ok o1 /\ dump o1 = Ok txt /\ load (Some txt) = Done o' /\ safe o' /\ at_key k o' = None /\ forall k', k' <> k -> at_key k' o' = at_key k' o.
Proof.
  intros S. destruct (del_item k o) as [o1|e|] eqn:D.
  - right. destruct (written_then_read o1 (safe_del k o o1 S D)) as (txt & o' & D1 & Ld & E & R & S'). exists o1, txt, o'. unfold del_item in D. destruct (has_key k (entries o)) eqn:H; [|discriminate]. inversion D as [D']. clear D. split; [|].
    + unfold at_key, said. apply has_key_in in H. intros N. revert H N. generalize (entries o). clear. intros es. induction es as [|e es IH]; [intros []|]. cbn [map value_of]. destruct (str_eqb k (ekey e)) eqn:E; [discriminate|]. intros [H|H]; [subst; rewrite str_eqb_same in E; discriminate|now apply IH].
    + split; [reflexivity|]. rewrite D'. split; [exact D1|]. split; [exact Ld|]. split; [exact S'|]. unfold at_key at 1 2. rewrite E, <- D'. unfold said at 1 2. cbn [CfgModel.entries]. rewrite at_filter, str_eqb_same. split; [reflexivity|]. intros k' N. now rewrite at_filter, str_eqb_diff.
  - left. unfold del_item in D. destruct (has_key k (entries o)) eqn:H; [discriminate|]. inversion D. split; [|reflexivity]. unfold at_key, said. assert (~ In k (map ekey (entries o))) as N by (rewrite <- has_key_in; congruence). revert N. generalize (entries o). clear. intros es N. induction es as [|x es IH]; [reflexivity|]. cbn [map value_of]. rewrite str_eqb_diff; [apply IH; intros H; apply N; now right|]. intros ->. apply N. now left.
  - unfold del_item in D. destruct (has_key k (entries o)); discriminate.
Qed.
(** the empty file, and the file that does not exist *)
Theorem no_file_is_empty : exists o, load None = Done o /\ load (Some []) = Done o /\ safe o /\ said o = [].
Proof. exists (Cfg [] [] [] (Some [])). split; [reflexivity|]. split; [reflexivity|]. split; [|reflexivity]. split; [apply NoDup_nil|]. split; [apply Forall_nil|]. split; [apply Forall_nil|]. split; [intros a []|split; intros []]. Qed.

(** ** What goes wrong outside of [safe] *)
Definition one (k : str) (v : value) : cfg := Cfg [] [Entry k v [] []] [] (Some []).
Definition back (o : cfg) : option (list (str * value * str)) := match dump o with Ok t => match load (Some t) with Done o' => Some (said o') | _ => None end | _ => None end.
(** a key with = is read as another key and value *)
Theorem key_with_equals_refuted : exists k v k' v', dump (one k v) <> Raise ConfigObjError /\ back (one k v) = Some [(k', v', [])] /\ k' <> k.
Proof. exists (L "a=b"), (Str (L "c")), (L "a"), (Str (L "b = c")). vm_compute. repeat split; discriminate. Qed.
(** so is a value with three quotes; the file is written without an error *)
Theorem three_quotes_refuted : exists v v', back (one (L "k") (Str v)) = Some [(L "k", Str v', L "#""'''")] /\ v' <> v.
Proof. exists (L "x'''#"""), (L "x"). vm_compute. split; [reflexivity|discriminate]. Qed.
(** three double quotes are put in three double quotes, because the names of the two kinds are exchanged *)
Theorem three_double_quotes_refuted : exists v, triple_quote v = Ok (L """""""a""""""'b""""""").
Proof. exists (L "a""""""'b"). reflexivity. Qed.
(** a list element that needs quotes and has both kinds cannot be written *)
Theorem list_element_refuted : exists v, dump (one (L "k") (Lst v)) = Raise ConfigObjError.
Proof. exists [L "it's, ""so"""]. reflexivity. Qed.
(** a comment with a quote and a comma turns the value into a list *)
Theorem comment_refuted : back (Cfg [] [Entry (L "k") (Str (L "v,w")) [] (L "# a"", b")] [] (Some [])) = Some [(L "k", Lst [L "v,w""# a"; L "b"], [])].
Proof. vm_compute. reflexivity. Qed.
(** a case with everything *)
Example safe_case : safe (Cfg [L "# projects"; L ""] [Entry (L "a b") (Lst [L "/x, y"; L "/z"]) [L " # mine"] (L "# here"); Entry (L "q") (Str (L "it's ""so"" # ok")) [] []; Entry (L "e") (Lst []) [] []] [L "# end"] (Some (L "  "))).
Proof.
  assert (forall s, forallb (fun a => negb (existsb (Nat.eqb (nat_of_ascii a)) [10; 12; 13])) s = true -> plain s) as P.
  { intros s H a I' J. rewrite forallb_forall in H. specialize (H a I'). apply negb_true_iff in H. assert (existsb (Nat.eqb (nat_of_ascii a)) [10; 12; 13] = true); [|congruence]. apply existsb_exists. exists (nat_of_ascii a). split; [exact J|apply Nat.eqb_refl]. }
  assert (forall s, plain s -> mem sq s = false -> storable s) as St. { intros s H1 H2. split; [exact H1|]. intros ((B & _) & _). apply mem_false in H2. contradiction. }
  assert (forall s, forallb (fun a => none_of [nl; cr] a) s = true -> one_line s) as O. { intros s H. rewrite forallb_forall in H. split; intros I'; specialize (H _ I'); apply none_of_spec in H; apply H; cbn; tauto. }
  assert (forall s, mem "="%char s = false -> match s with a :: _ => none_of (L "[") a && Nat.ltb (nat_of_ascii a) 128 = true | [] => True end -> ~ In "="%char s /\ forall a r, s = a :: r -> a <> "["%char /\ nat_of_ascii a < 128) as K.
  { intros s H1 H2. split; [now apply mem_false|]. intros a r ->. apply andb_true_iff in H2. destruct H2 as (H2 & H3). apply none_of_spec in H2. apply Nat.ltb_lt in H3. split; [intros ->; apply H2; now left|exact H3]. }
  assert (forall s, mem ","%char s = false -> ~ In ","%char s) as NC by (intros; now apply mem_false).
  split; [|split; [|split]].
  - repeat (constructor; [cbn; intros H; repeat (destruct H as [H|H]; [discriminate|]); exact H|]). constructor.
  - assert (forall s, mem sq s = false -> forallb (fun a => negb (existsb (Nat.eqb (nat_of_ascii a)) [10; 12; 13])) s = true -> storable s) as St2 by (intros; apply St; [now apply P|assumption]).
    constructor; [|constructor; [|constructor; [|constructor]]]; (split; [split; [apply St2; reflexivity|right; apply K; reflexivity]|split]).
    + constructor; [apply St2; reflexivity|constructor; [apply St2; reflexivity|constructor]].
    + split; [apply O; reflexivity|]. split; [apply NC; reflexivity|right; eexists; reflexivity].
    + split; [apply P; reflexivity|]. intros _ q x y Hq E. assert (contains [q; q; q] (L "it's ""so"" # ok") = true) as C by (rewrite E; apply contains_app; now apply (contains_here _ _ y)). destruct Hq as [-> | ->]; discriminate.
    + split; [apply O; reflexivity|]. split; [apply NC; reflexivity|now left].
    + constructor.
    + split; [apply O; reflexivity|]. split; [apply NC; reflexivity|now left].
  - cbn [all_comments CfgModel.initial CfgModel.entries CfgModel.final map ecomments List.concat app]. repeat constructor; try (apply O; reflexivity).
    + exists [], (L "# projects"). split; [reflexivity|]. split; [intros a []|right; eexists; reflexivity].
    + exists [], []. split; [reflexivity|]. split; [intros a []|now left].
    + exists (L " "), (L "# mine"). split; [reflexivity|]. split; [intros a [<-|[]]; reflexivity|right; eexists; reflexivity].
    + exists [], (L "# end"). split; [reflexivity|]. split; [intros a []|right; eexists; reflexivity].
  - split; [intros a [<-|[<-|[]]]; reflexivity|apply O; reflexivity].
Qed.
