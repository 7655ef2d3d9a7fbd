(** * CfgWhole: nothing of a file that is read without an error is passed over (C105) *)
From Coq Require Import List Bool Arith Lia Ascii String.
From Verif Require Import PyBase PubModel IoColumns CfgModel CfgFile.
Import ListNotations.
Open Scope nat_scope. Open Scope list_scope.

(** a line that says something: not blank and not a comment *)
Definition content_line (l : str) : Prop := unindented l <> [] /\ forall c, unindented l <> hash :: c.
(** [n] lines of the list do, the others are these *)
Inductive contents : list str -> nat -> list str -> Prop :=
| c_nil : contents [] 0 []
| c_yes l ls n cs : content_line l -> contents ls n cs -> contents (l :: ls) (S n) cs
| c_no l ls n cs : ~ content_line l -> contents ls n cs -> contents (l :: ls) n (l :: cs).

Lemma parse_error ls : forall coms reset started e o o', parse ls coms reset started (S e) o <> Done o'.
Proof.
  induction ls as [|l ls I]; intros coms reset started e o o'; cbn [parse].
  - discriminate.
  - destruct (skipped l); [apply I|]. destruct (rmatch marker l); [discriminate|]. destruct (rmatch keyword l) as [c|]; [|apply I].
    destruct (line_value _) as [[v com]| |]; try discriminate; [|apply I]. destruct (unquote _); [|discriminate]. destruct (has_key _ _); apply I.
Qed.
Lemma has_key_not k es : has_key k es = false -> ~ In k (map ekey es).
Proof.
  intros H J. apply in_map_iff in J. destruct J as (e & E & J). unfold has_key in H. rewrite <- Bool.not_true_iff_false in H. apply H. apply existsb_exists. exists e. split; trivial. now apply str_eqb_spec.
Qed.
Lemma content_skipped l : skipped l = false -> content_line l.
Proof. intros H. rewrite <- Bool.not_true_iff_false in H. rewrite skipped_spec in H. split; [tauto|]. intros c E. apply H. right. now exists c. Qed.
Lemma skipped_content l : skipped l = true -> ~ content_line l.
Proof. intros H (A & B). apply skipped_spec in H. destruct H as [H|(c & H)]; [auto|]. now apply (B c). Qed.
Lemma parse_whole ls : forall coms reset started o o', final o = [] -> (started = false -> entries o = [] /\ initial o = []) -> (reset = true -> entries o <> []) -> (started = true -> entries o <> []) -> NoDup (map ekey (entries o)) ->
  parse ls coms reset started 0 o = Done o' ->
  exists n cs, contents ls n cs /\ NoDup (map ekey (entries o')) /\ List.length (entries o') = List.length (entries o) + n /\
    all_comments o' = initial o ++ List.concat (map ecomments (entries o)) ++ (if reset then [] else coms) ++ cs.
Proof.
  induction ls as [|l ls I]; intros coms reset started o o' F S0 R0 S1 N; cbn [parse].
  - cbn [Nat.ltb Nat.leb]. intros H. exists 0, []. split; [constructor|]. destruct (entries o) as [|e es] eqn:Ee.
    + assert (reset = false) as -> by (destruct reset; [now destruct R0|trivial]). assert (initial o = []) as Ei. { destruct started; [now destruct S1|]. now destruct S0. }
      rewrite Ei in H. injection H as <-. cbn [entries List.length]. repeat split; [constructor|]. unfold all_comments; cbn [initial entries final map List.concat]. now rewrite Ei, F, !app_nil_r.
    + injection H as <-. cbn [entries List.length]. repeat split; [exact N|lia|]. unfold all_comments; cbn [initial entries final]. rewrite app_nil_r. destruct reset; [rewrite F|]; reflexivity.
  - destruct (skipped l) eqn:K.
    + intros H. apply I in H; trivial; try discriminate. destruct H as (n & cs & C & H1 & H2 & H3). exists n, (l :: cs). split; [constructor; trivial; now apply skipped_content|]. repeat split; trivial.
      rewrite H3. destruct reset; rewrite <- ?app_assoc; reflexivity.
    + destruct (rmatch marker l); [discriminate|]. destruct (rmatch keyword l) as [c|]; [|intros H; now apply parse_error in H].
      destruct (line_value _) as [[v com]| |]; try discriminate; [|intros H; now apply parse_error in H]. destruct (unquote _) as [k|]; [|discriminate].
      destruct (has_key k (entries o)) eqn:HK; [intros H; now apply parse_error in H|]. intros H. apply I in H; cbn [final entries initial] in *; trivial; try discriminate.
      * destruct H as (n & cs & C & H1 & H2 & H3). exists (S n), cs. split; [constructor; trivial; now apply content_skipped|]. rewrite app_length in H2. cbn [List.length] in H2. repeat split; trivial; [lia|].
        rewrite H3. rewrite map_app, concat_app. cbn [map List.concat ecomments]. rewrite !app_nil_r. destruct started, reset; rewrite <- ?app_assoc; cbn [app]; try reflexivity.
        -- destruct (S0 eq_refl) as (Se & Si). now apply R0 in Se.
        -- destruct (S0 eq_refl) as (Se & Si). now rewrite Se, Si.
      * intros _ E. destruct (entries o); discriminate.
      * intros _ E. destruct (entries o); discriminate.
      * rewrite map_app. cbn [map ekey]. apply (Permutation.Permutation_NoDup (l := k :: map ekey (entries o))); [apply Permutation.Permutation_cons_append|]. constructor; trivial. now apply has_key_not.
Qed.

(** every line of a file that is read without an error is an entry of its own, with a key of its own, or one of the comments, in this order *)
Theorem read_whole txt o : load (Some txt) = Done o ->
  exists n cs, contents (match txt with [] => [] | _ => splitlines [] txt end) n cs /\ List.length (entries o) = n /\ NoDup (map ekey (entries o)) /\ all_comments o = cs.
Proof.
  intros H. assert (Q : parse (match txt with [] => [] | _ => splitlines [] txt end) [] false false 0 empty_cfg = Done o).
  { unfold load in H. destruct txt; trivial. destruct (bom _); [discriminate|trivial]. }
  apply parse_whole in Q; try discriminate; [|reflexivity|now split|constructor]. destruct Q as (n & cs & C & N & E & A). exists n, cs. repeat split; trivial.
Qed.
Example a_repeated_key : load (Some (L "a = 1" ++ [nl] ++ L "# a" ++ [nl] ++ L "b = 2" ++ [nl])) <> load None /\ load (Some (L "a = 1" ++ [nl] ++ L "a = 2" ++ [nl])) = Failed 1.
Proof. split; [vm_compute; discriminate|vm_compute; reflexivity]. Qed.
