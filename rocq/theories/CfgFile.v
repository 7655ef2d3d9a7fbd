(** * CfgFile: whole files (C105) *)
From Coq Require Import List Bool Arith Ascii String Lia.
From Verif Require Import PyBase PubModel IoColumns CfgModel CfgRx CfgLine CfgRead.
Import ListNotations.

(** ** Specification *)
Definition comment_ok (l : str) : Prop := one_line l /\ exists w r, l = w ++ r /\ blank w /\ (r = [] \/ exists c, r = "#"%char :: c).
Definition all_comments (o : cfg) : list str := initial o ++ List.concat (map ecomments (entries o)) ++ final o.
Definition safe_entry (e : entry) : Prop := safe_key (ekey e) /\ safe_value (evalue e) /\ safe_inline (einline e).
Definition safe (o : cfg) : Prop := NoDup (map ekey (entries o)) /\ Forall safe_entry (entries o) /\ Forall comment_ok (all_comments o) /\ safe_indent (indent o).
(** what a file says *)
Definition said (o : cfg) : list (str * value * str) := map (fun e => (ekey e, evalue e, einline e)) (entries o).
(** comments without the white space in front and without empty lines *)
Definition unindented (l : str) : str := snd (span is_space l).
Definition remarks (o : cfg) : list str := filter (fun l => match l with [] => false | _ => true end) (map unindented (all_comments o)).

(** ** Comment lines *)
Lemma unindented_app w r : blank w -> match r with a :: _ => is_space a = false | [] => True end -> unindented (w ++ r) = r.
Proof.
  intros B R. unfold unindented. induction w as [|a w IH]; [destruct r as [|b r]; [reflexivity|]; cbn [app span]; now rewrite R|]. cbn [app span]. rewrite (B a) by (now left). destruct (span is_space (w ++ r)) eqn:E. cbn [snd] in *. apply IH. intros b I'. apply B. now right.
Qed.
Lemma comment_shape l : comment_ok l -> (unindented l = [] \/ exists c, unindented l = hash :: c) /\ one_line (unindented l).
Proof.
  intros (O & w & r & -> & B & H). rewrite unindented_app; [|exact B|destruct H as [->|(c & ->)]; [exact I|reflexivity]]. split; [exact H|]. split; intros I'; [destruct O as (O & _)|destruct O as (_ & O)]; apply O; apply in_or_app; now right.
Qed.
Lemma span_parts l : exists w, l = w ++ unindented l /\ blank w /\ match unindented l with a :: _ => is_space a = false | [] => True end.
Proof.
  unfold unindented. induction l as [|a l IH]; [exists []; repeat split; intros b []|]. cbn [span]. destruct (is_space a) eqn:S; [|exists []; repeat split; [intros b []|exact S]]. destruct (span is_space l) as (x & y). cbn [snd] in *. destruct IH as (w & E & B & F). exists (a :: w). split; [now rewrite E at 1|]. split; [|exact F]. intros b [<-|I']; [exact S|now apply B].
Qed.
Lemma strip_unindented l : strip l = match unindented l with [] => [] | a :: r => strip (a :: r) end.
Proof.
  destruct (span_parts l) as (w & E & B & F). unfold strip at 1. fold (unindented l). destruct (unindented l) as [|a r]; [reflexivity|]. unfold strip. cbn [span]. now rewrite F.
Qed.
Lemma skipped_spec l : skipped l = true <-> unindented l = [] \/ exists c, unindented l = hash :: c.
Proof.
  unfold skipped. rewrite strip_unindented. destruct (span_parts l) as (w & E & B & F). destruct (unindented l) as [|a r]; [split; auto|]. destruct (strip_first a r F) as (r' & ->). split.
  - intros H. apply is_eq in H. subst. right. eauto.
  - intros [H|(c & H)]; [discriminate|]. injection H as -> _. reflexivity.
Qed.
Lemma skipped_ok l : skipped l = true -> one_line l -> comment_ok l.
Proof. intros S O. split; [exact O|]. destruct (span_parts l) as (w & E & B & F). exists w, (unindented l). split; [exact E|]. split; [exact B|]. now apply skipped_spec. Qed.
Lemma ok_skipped l : comment_ok l -> skipped l = true. Proof. intros H. apply skipped_spec. now apply comment_shape. Qed.
Lemma comment_line_same l : skipped l = true -> comment_line l = l.
Proof. unfold skipped, comment_line. destruct (strip l) as [|a r]; [reflexivity|]. now intros ->. Qed.
Lemma unindented_idem l : unindented (unindented l) = unindented l.
Proof. destruct (span_parts l) as (w & E & B & F). change (unindented l) with ([] ++ unindented l) at 1. apply unindented_app; [intros a []|exact F]. Qed.
Lemma unindented_skipped l : comment_ok l -> skipped (unindented l) = true.
Proof. intros H. apply skipped_spec. rewrite unindented_idem. now apply comment_shape. Qed.

(** ** Lines *)
Inductive says : list str -> list str -> list (str * value * str) -> Prop :=
| says_nil : says [] [] []
| says_skip l ls cs es : skipped l = true -> says ls cs es -> says (l :: ls) (l :: cs) es
| says_item l ls cs es k v com : reads l k v com -> says ls cs es -> says (l :: ls) cs ((k, v, com) :: es).
Lemma says_app l1 c1 e1 l2 c2 e2 : says l1 c1 e1 -> says l2 c2 e2 -> says (l1 ++ l2) (c1 ++ c2) (e1 ++ e2).
Proof. induction 1; intros H2; cbn [app]; [exact H2| |]; constructor; auto. Qed.
Lemma says_comments ls : Forall (fun l => skipped l = true) ls -> says ls ls [].
Proof. induction 1; constructor; auto. Qed.
Lemma says_drop ls cs es : says (ls ++ [[]]) cs es -> exists cs', says ls cs' es /\ cs = cs' ++ [[]].
Proof.
  revert cs es. induction ls as [|l ls IH]; intros cs es H; cbn [app] in H.
  - inversion H as [|? ? ? ? S H'|? ? ? ? k v com R H']; subst; [inversion H'; subst; exists []; split; [constructor|reflexivity]|]. destruct R as (R & _). discriminate.
  - inversion H as [|? ? cs0 ? S H'|? ? ? ? k v com R H']; subst; destruct (IH _ _ H') as (cs' & Hs & ->); [exists (l :: cs')|exists cs']; split; try reflexivity; constructor; auto.
Qed.
Lemma says_sub ls cs es : says ls cs es -> forall l, In l cs -> In l ls /\ skipped l = true.
Proof. induction 1 as [|l ls cs es S H IH|l ls cs es k v com R H IH]; intros x I'; [contradiction| |]; [destruct I' as [<-|I']; [split; [now left|exact S]|]|]; destruct (IH x I'); split; auto; now right. Qed.
Lemma has_key_false k es : ~ In k (map ekey es) -> has_key k es = false.
Proof. intros N. unfold has_key. destruct (existsb (fun e => str_eqb k (ekey e)) es) eqn:E; [|reflexivity]. apply existsb_exists in E. destruct E as (e & I' & E). apply str_eqb_spec in E. subst. exfalso. apply N. now apply in_map. Qed.
Definition key3 (t : str * value * str) : str := fst (fst t).
Lemma parse_says ls cs es : says ls cs es -> forall coms reset started o,
  final o = [] -> (started = false -> entries o = [] /\ initial o = []) -> (reset = true -> entries o <> []) -> NoDup (map ekey (entries o) ++ map key3 es) ->
  exists o', parse ls coms reset started 0 o = Done o' /\ said o' = said o ++ es /\ all_comments o' = initial o ++ List.concat (map ecomments (entries o)) ++ (if reset then [] else coms) ++ cs /\ indent o' = Some (text_of (indent o)).
Proof.
  induction 1 as [|l ls cs es S H IH|l ls cs es k v com R H IH]; intros coms reset started o Fo St Re Nd.
  - cbn [parse]. unfold said, all_comments. destruct o as [ini ent fin ind]. cbn [CfgModel.initial CfgModel.entries CfgModel.final CfgModel.indent] in *. subst fin.
    destruct ent as [|e ent].
    + destruct reset; [exfalso; now apply Re|]. destruct ini as [|i ini]; eexists; (split; [reflexivity|]); cbn [CfgModel.initial CfgModel.entries CfgModel.final CfgModel.indent map List.concat app]; rewrite ?app_nil_r; (split; [reflexivity|]; split; [reflexivity|]; destruct ind; reflexivity).
    + eexists. split; [reflexivity|]. cbn [CfgModel.initial CfgModel.entries CfgModel.final CfgModel.indent map List.concat app]. rewrite ?app_nil_r. destruct reset; rewrite ?app_nil_r; (split; [reflexivity|]; split; [reflexivity|]; destruct ind; reflexivity).
  - cbn [parse]. rewrite S. destruct (IH ((if reset then [] else coms) ++ [l]) false started o Fo St) as (o' & E & E1 & E2 & E3); [discriminate|exact Nd|]. exists o'. split; [exact E|]. split; [exact E1|]. split; [|exact E3]. rewrite E2, <- app_assoc. reflexivity.
  - cbn [parse]. destruct R as (Sk & M & c & t & q & K & C1 & C2 & C3 & V & U). rewrite Sk, M, K, C1, C2, C3. cbn [text_of]. rewrite V, U.
    cbn [map key3 fst] in Nd. assert (~ In k (map ekey (entries o))) as Nk. { apply NoDup_remove_2 in Nd. intros I'. apply Nd. apply in_or_app. now left. } rewrite has_key_false by exact Nk.
    set (cs0 := if reset then [] else coms). set (ini := if started then initial o else cs0). set (com0 := if started then cs0 else []).
    destruct (IH com0 true true (Cfg ini (entries o ++ [Entry k v com0 com]) (final o) (indent o))) as (o' & E & E1 & E2 & E3); cbn [CfgModel.initial CfgModel.entries CfgModel.final CfgModel.indent]; [exact Fo|discriminate|intros _ Hn; destruct (entries o); discriminate| |].
    + rewrite map_app. cbn [map ekey]. rewrite <- app_assoc. exact Nd.
    + exists o'. split; [exact E|]. unfold said in E1 |- *. cbn [CfgModel.initial CfgModel.entries CfgModel.final CfgModel.indent] in *. rewrite map_app in E1. cbn [map ekey evalue einline] in E1. rewrite <- app_assoc in E1. split; [exact E1|]. split; [|exact E3].
      rewrite E2, map_app, concat_app. cbn [map List.concat ecomments]. rewrite app_nil_r. unfold ini, com0. destruct started; [now rewrite <- !app_assoc|]. destruct (St eq_refl) as (-> & ->). cbn [map List.concat app]. reflexivity.
Qed.
(** ** Splitting *)
Lemma split_line l : forall acc rest, one_line l -> splitlines acc (l ++ nl :: rest) = (rev acc ++ l) :: splitlines [] rest.
Proof.
  induction l as [|a l IH]; intros acc rest (N1 & N2); cbn [app splitlines]; [rewrite is_refl, app_nil_r; reflexivity|].
  assert (is nl a = false) as -> by (apply is_neq; intros ->; apply N1; now left). assert (is cr a = false) as -> by (apply is_neq; intros ->; apply N2; now left).
  rewrite IH by (split; intros I'; [apply N1|apply N2]; now right). cbn [rev]. now rewrite <- app_assoc.
Qed.
Lemma split_lines_nl ls : ls <> [] -> Forall one_line ls -> splitlines [] (join [nl] ls ++ [nl]) = ls.
Proof.
  induction ls as [|l ls IH]; [contradiction|]. intros _ F. inversion F as [|? ? O F']; subst. destruct ls as [|l2 ls]; [cbn [join]; now rewrite split_line|].
  change (join [nl] (l :: l2 :: ls)) with (l ++ [nl] ++ join [nl] (l2 :: ls)). rewrite <- !app_assoc. cbn [app]. rewrite split_line by exact O. cbn [rev app]. f_equal. apply IH; [discriminate|exact F'].
Qed.
Lemma join_last z l : z <> [] -> join [nl] (z ++ [l]) = join [nl] z ++ nl :: l.
Proof.
  induction z as [|a z IH]; [contradiction|]. intros _. destruct z as [|b z]; [reflexivity|]. change ((a :: b :: z) ++ [l]) with (a :: b :: z ++ [l]). change (join [nl] (a :: b :: z ++ [l])) with (a ++ [nl] ++ join [nl] ((b :: z) ++ [l])). rewrite IH by discriminate. change (join [nl] (a :: b :: z)) with (a ++ [nl] ++ join [nl] (b :: z)). now rewrite <- !app_assoc.
Qed.
Definition text (ls : list str) : str := let out := join [nl] ls in if ends_nl out then out else out ++ [nl].
Lemma split_text ls : Forall one_line ls -> exists ls', splitlines [] (text ls) = ls' /\ (ls' = ls \/ ls = ls' ++ [[]] \/ (ls = [] /\ ls' = [[]])).
Proof.
  intros F. unfold text. destruct ls as [|l0 ls0]; [exists [[]]; split; [reflexivity|auto]|]. set (ls := l0 :: ls0) in *. assert (ls <> []) as Ne by discriminate. clearbody ls. cbv zeta. destruct (ends_nl (join [nl] ls)) eqn:E; [|exists ls; split; [now apply split_lines_nl|auto]].
  destruct (@exists_last _ ls Ne) as (z & l & ->). apply Forall_app in F. destruct F as (Fz & Fl). inversion Fl as [|? ? O _]; subst.
  assert (l = [] /\ z <> []) as (-> & Nz).
  { destruct z as [|a z]; [cbn [app join] in E|rewrite join_last in E by discriminate]; unfold ends_nl in E; (destruct (rev l) as [|b r] eqn:R; [assert (l = []) by (rewrite <- (rev_involutive l), R; reflexivity); subst|]).
    - discriminate.
    - exfalso. apply is_eq in E. subst. destruct O as (O & _). apply O. rewrite <- (rev_involutive l), R. cbn [rev]. apply in_or_app. right. now left.
    - split; [reflexivity|discriminate].
    - exfalso. rewrite rev_app_distr in E. cbn [rev] in E. rewrite R in E. cbn [app] in E. apply is_eq in E. subst. destruct O as (O & _). apply O. rewrite <- (rev_involutive l), R. cbn [rev]. apply in_or_app. right. now left. }
  exists z. split; [rewrite join_last by exact Nz; now apply split_lines_nl|auto].
Qed.
Definition low (l : str) : Prop := match l with a :: _ => nat_of_ascii a < 128 | [] => True end.
Lemma text_low ls : Forall low ls -> exists a r, text ls = a :: r /\ nat_of_ascii a < 128.
Proof.
  intros F. unfold text. destruct ls as [|l ls]; [exists nl, []; split; [reflexivity|cbn; lia]|]. inversion F as [|? ? Lo _]; subst. cbv zeta.
  assert (exists a r, join [nl] (l :: ls) ++ [nl] = a :: r /\ nat_of_ascii a < 128) as (a & r & E & La). { destruct l as [|a l]; [destruct ls; cbn [join app]; exists nl; eexists; (split; [reflexivity|cbn; lia])|]. exists a. destruct ls; cbn [join app]; eexists; (split; [reflexivity|exact Lo]). }
  destruct (ends_nl (join [nl] (l :: ls))) eqn:En; [|eauto]. destruct (join [nl] (l :: ls)) as [|b o]; [discriminate|]. cbn [app] in E. injection E as <- _. eauto.
Qed.
Lemma bom_low a r : nat_of_ascii a < 128 -> bom (a :: r) = false.
Proof.
  intros H. unfold bom. destruct r as [|b [|c r]]; cbn [firstn map]; set (n := nat_of_ascii a) in *; clearbody n; do 128 (destruct n as [|n]; [reflexivity|]); lia.
Qed.
(** ** Writing *)
Lemma comment_low l : comment_ok l -> low l.
Proof. intros (_ & w & r & -> & B & H). unfold low. destruct w as [|a w]; [destruct H as [->|(c & ->)]; cbn; [exact I|lia]|]. cbn [app]. assert (is_space a = true) as S by (apply B; now left). apply space_char in S. cbn [In] in S. lia. Qed.
Lemma write_entries_says o es : Forall safe_entry es -> Forall comment_ok (List.concat (map ecomments es)) -> safe_indent (indent o) ->
  exists ls, write_entries o es = Ok ls /\ says ls (map unindented (List.concat (map ecomments es))) (map (fun e => (ekey e, evalue e, einline e)) es) /\ Forall one_line ls /\ Forall low ls.
Proof.
  intros F C Sd. induction es as [|e es IH]; [exists []; repeat split; constructor|]. inversion F as [|? ? (Sk & Sv & Si) F']; subst. cbn [map List.concat] in C. apply Forall_app in C. destruct C as (Ce & C). destruct (IH F' C) as (ls & E & H & O & Lo).
  destruct (write_line_reads o e Sk Sv Si Sd) as (line & El & R & Ol & (a & r & Ea & _ & _ & _ & La)). cbn [write_entries]. rewrite El, E. eexists. split; [reflexivity|].
  assert (map (fun l => comment_line (snd (span is_space l))) (ecomments e) = map unindented (ecomments e)) as ->. { apply map_ext_in. intros l I'. fold (unindented l). apply comment_line_same. apply unindented_skipped. rewrite Forall_forall in Ce. now apply Ce. }
  split; [|split].
  - cbn [map List.concat]. rewrite map_app. change ((ekey e, evalue e, einline e) :: map (fun e0 => (ekey e0, evalue e0, einline e0)) es) with ([] ++ (ekey e, evalue e, einline e) :: map (fun e0 => (ekey e0, evalue e0, einline e0)) es). apply says_app; [|now constructor]. apply says_comments. rewrite Forall_map. revert Ce. apply Forall_impl. apply unindented_skipped.
  - apply Forall_app. split; [|now constructor]. rewrite Forall_map. revert Ce. apply Forall_impl. intros l Hl. now apply comment_shape.
  - apply Forall_app. split; [|constructor; [rewrite Ea; exact La|exact Lo]]. rewrite Forall_map. revert Ce. apply Forall_impl. intros l Hl. destruct (comment_shape l Hl) as ([-> |(c & ->)] & _); cbn; [exact I|lia].
Qed.
Lemma filter_nonblank_unindented l : filter (fun l : str => match l with [] => false | _ => true end) (map unindented (l ++ [[]])) = filter (fun l : str => match l with [] => false | _ => true end) (map unindented l).
Proof. rewrite map_app, filter_app. cbn [map]. change (unindented []) with (@nil ascii). cbn [filter]. now rewrite app_nil_r. Qed.
(** C105: a configuration that can be stored is written without error, and what is read from that file has the same keys with the same values and comments, in the same order, and can be stored again *)
Theorem written_then_read o : safe o -> exists txt o', dump o = Ok txt /\ load (Some txt) = Done o' /\ said o' = said o /\ remarks o' = remarks o /\ safe o'.
Proof.
  intros (Nd & Fe & Fc & Sd). unfold all_comments in Fc. apply Forall_app in Fc. destruct Fc as (Fi & Fc). apply Forall_app in Fc. destruct Fc as (Fm & Ff).
  destruct (write_entries_says o (entries o) Fe Fm Sd) as (k & Ek & Hk & Ok1 & Lk). unfold dump. rewrite Ek.
  assert (forall l, Forall comment_ok l -> map comment_line l = l) as CL. { intros l Hl. rewrite <- (map_id l) at 2. apply map_ext_in. intros x I'. apply comment_line_same, ok_skipped. rewrite Forall_forall in Hl. now apply Hl. }
  rewrite (CL (initial o) Fi), (CL (final o) Ff). set (ls := initial o ++ k ++ final o).
  assert (says ls (initial o ++ map unindented (List.concat (map ecomments (entries o))) ++ final o) (said o)) as Hs.
  { unfold ls. change (said o) with ([] ++ said o). apply says_app; [apply says_comments; revert Fi; apply Forall_impl; apply ok_skipped|]. rewrite <- (app_nil_r (said o)). apply says_app; [exact Hk|]. apply says_comments. revert Ff. apply Forall_impl. apply ok_skipped. }
  assert (Forall one_line ls) as Ol. { unfold ls. repeat (apply Forall_app; split); [revert Fi|exact Ok1|revert Ff]; apply Forall_impl; intros l (H & _); exact H. }
  assert (Forall low ls) as Ll. { unfold ls. repeat (apply Forall_app; split); [revert Fi|exact Lk|revert Ff]; apply Forall_impl; apply comment_low. }
  fold (text ls). exists (text ls). destruct (text_low ls Ll) as (a & r & Et & La). destruct (split_text ls Ol) as (ls' & Es & Hc).
  set (cs := initial o ++ map unindented (List.concat (map ecomments (entries o))) ++ final o) in *.
  assert (exists cs', says ls' cs' (said o) /\ filter (fun l : str => match l with [] => false | _ => true end) (map unindented cs') = filter (fun l : str => match l with [] => false | _ => true end) (map unindented cs) /\ Forall one_line ls') as (cs' & Hs' & Hf & Ol').
  { destruct Hc as [-> |[E|(E & ->)]]; [exists cs; auto| |].
    - rewrite E in Hs, Ol. apply says_drop in Hs. destruct Hs as (cs' & Hs & ->). exists cs'. split; [exact Hs|]. split; [symmetry; apply filter_nonblank_unindented|]. apply Forall_app in Ol. tauto.
    - rewrite E in Hs. inversion Hs as [Hn1 Hn2 Hn3| |]. exists [[]]. split; [now repeat constructor|]. split; [reflexivity|]. repeat constructor; intros []. }
  destruct (parse_says ls' cs' (said o) Hs' [] false false empty_cfg) as (o' & P & E1 & E2 & E3); [reflexivity|auto|discriminate| |].
  { cbn [empty_cfg CfgModel.entries map app]. unfold said. rewrite map_map. exact Nd. }
  exists o'. split; [reflexivity|]. split; [|split; [exact E1|split]].
  - unfold load. rewrite <- Es in P. rewrite Et in *. rewrite bom_low by exact La. exact P.
  - unfold remarks. rewrite E2. cbn [empty_cfg CfgModel.initial CfgModel.entries map List.concat app]. rewrite Hf. unfold cs, all_comments. rewrite !map_app, !filter_app. do 2 f_equal. rewrite map_map. f_equal. apply map_ext. intros l. apply unindented_idem.
  - assert (map ekey (entries o') = map ekey (entries o)) as Ek'. { assert (map key3 (said o') = map key3 (said o)) as E by (rewrite E1; reflexivity). unfold said in E. rewrite !map_map in E. exact E. }
    split; [rewrite Ek'; exact Nd|]. split; [|split].
    + cbn [said empty_cfg CfgModel.entries map app] in E1. change (said empty_cfg) with (@nil (str * value * str)) in E1. cbn [app] in E1. unfold said in E1. clear - Fe E1. revert E1 Fe. generalize (entries o') (entries o). intros es es'. revert es'. induction es as [|e es IH]; intros es' E F; destruct es' as [|e' es']; try discriminate; constructor.
      * cbn [map] in E. inversion E as [[Ea Eb Ec Ed]]. inversion F as [|? ? Se _]; subst. unfold safe_entry. rewrite Ea, Eb, Ec. exact Se.
      * cbn [map] in E. inversion E as [[Ea Eb Ec Ed]]. inversion F; subst. now apply (IH es').
    + rewrite E2. cbn [empty_cfg CfgModel.initial CfgModel.entries map List.concat app]. apply Forall_forall. intros l I'. destruct (says_sub _ _ _ Hs' l I') as (Il & Sl). apply skipped_ok; [exact Sl|]. rewrite Forall_forall in Ol'. now apply Ol'.
    + rewrite E3. cbn. split; [intros b []|split; intros []].
Qed.
