(** * CfgRead: a written file is read back (C105) *)
From Coq Require Import List Bool Arith Ascii String Lia.
From Verif Require Import PyBase PubModel IoColumns CfgModel CfgRx CfgLine.
Import ListNotations.

Definition one_line (s : str) : Prop := ~ In nl s /\ ~ In cr s.
Definition triple_free (s : str) : Prop := forall q x y, q = "'"%char \/ q = """"%char -> s <> x ++ [q; q; q] ++ y.
Definition safe_value (v : value) : Prop := match v with Str s => plain s /\ (both s -> triple_free s) | Lst l => Forall storable l end.
(** '' or a # with text that has no comma *)
Definition safe_inline (c : str) : Prop := one_line c /\ ~ In ","%char c /\ (c = [] \/ exists r, c = "#"%char :: r).
Definition blank (w : str) : Prop := forall a, In a w -> is_space a = true.
Definition safe_indent (i : option str) : Prop := match i with Some w => blank w /\ one_line w | None => True end.
(** a key of the file is in quotes, or has no = and begins with neither [ nor a byte of a byte order mark *)
Definition safe_key (k : str) : Prop := storable k /\ (needs_quotes k \/ ~ In "="%char k /\ forall a r, k = a :: r -> a <> "["%char /\ nat_of_ascii a < 128).

Lemma triple_free_contains s q : q = dq \/ q = sq -> triple_free s -> contains [q; q; q] s = false.
Proof.
  intros Q F. destruct (contains [q; q; q] s) eqn:E; [|reflexivity]. exfalso. assert (exists x y, s = x ++ [q; q; q] ++ y) as (x & y & H).
  { clear F. induction s as [|a s IH]; [discriminate|]. cbn [contains] in E. apply orb_true_iff in E. destruct E as [E|E].
    - exists []. cbn [prefix] in E. destruct s as [|b s]; [rewrite andb_false_r in E; discriminate|]. destruct s as [|d s]; [rewrite !andb_false_r in E; discriminate|].
      apply andb_true_iff in E. destruct E as (E1 & E). apply andb_true_iff in E. destruct E as (E2 & E). apply andb_true_iff in E. destruct E as (E3 & _). apply Ascii.eqb_eq in E1, E2, E3. subst. exists s. reflexivity.
    - destruct (IH E) as (x & y & ->). exists (a :: x), y. reflexivity. }
  apply (F q x y); [destruct Q as [-> | ->]; auto|exact H].
Qed.
Lemma blank_forallb w : blank w -> forallb is_space w = true. Proof. intros B. apply forallb_forall. exact B. Qed.
Lemma inline_tail o c : safe_inline c -> safe_indent (indent o) -> exists w, tail_text w c (inline o c).
Proof.
  intros ((N1 & N2) & Nc & H) S. unfold inline. destruct H as [->|(r & ->)].
  - exists []. repeat split; auto.
  - change (is hash "#"%char) with true. cbv iota. cbn [app]. exists (match indent o with Some i => i | None => L "    " end). split; [reflexivity|]. destruct (indent o) as [w|].
    + destruct S as (B & O). split; [now apply blank_forallb|]. split; [exact N1|]. split; [|right; eauto]. intros I'. apply in_app_or in I'. destruct I' as [I'|I']; [|contradiction]. apply B in I'. discriminate.
    + split; [reflexivity|]. split; [exact N1|]. split; [|right; eauto]. intros [H|[H|[H|[H|H]]]]; try discriminate. contradiction.
Qed.
Lemma tail_first w com t : tail_text w com t -> match t with a :: _ => a <> dq /\ a <> sq | [] => True end.
Proof.
  intros (-> & W & _ & _ & H). destruct w as [|a w]; [destruct H as [->|(r & ->)]; [exact I|split; discriminate]|]. cbn [app]. cbn [forallb] in W. apply andb_true_iff in W. destruct W as (Wa & _). split; intros ->; discriminate.
Qed.
(** no three quotes at the beginning *)
Definition first_three (v : str) : option ascii := match v with a :: b :: c :: _ => if Ascii.eqb a b && Ascii.eqb b c && (is dq a || is sq a) then Some a else None | _ => None end.
Lemma not_triple q u : token q -> match u with a :: _ => a <> dq /\ a <> sq | [] => True end -> first_three (q ++ u) = None.
Proof.
  intros T H. assert (forall c s, c = dq \/ c = sq -> ~ In c s -> first_three (quoted c s ++ u) = None) as Q.
  { intros c s C N. unfold quoted. cbn [app]. destruct s as [|b s]; cbn [app].
    - destruct u as [|b u]; [reflexivity|]. unfold first_three. destruct (Ascii.eqb c b) eqn:E; [apply Ascii.eqb_eq in E; subst b; exfalso; destruct C as [-> | ->], H; congruence|]. now rewrite andb_false_r.
    - unfold first_three. destruct ((s ++ [c]) ++ u); [reflexivity|]. destruct (Ascii.eqb c b) eqn:E; [apply Ascii.eqb_eq in E; subst b; exfalso; apply N; now left|reflexivity]. }
  inversion T as [s N1 N2|s N1 N2|a s F S1 S2 Nc Nh Nn]; subst q; auto.
  cbn [app]. unfold first_three. destruct (s ++ u) as [|b [|c v]]; try reflexivity. assert (is dq a || is sq a = false) as ->; [|now rewrite andb_false_r]. apply orb_false_iff. split; apply is_neq; intros ->; apply F; cbn; tauto.
Qed.
Lemma line_value_plain v : first_three v = None -> line_value v = match handle_value v with Some r => Done r | None => Failed 1 end.
Proof. intros H. unfold line_value. change (match v with a :: b :: c :: _ => if Ascii.eqb a b && Ascii.eqb b c && (is dq a || is sq a) then Some a else None | _ => None end) with (first_three v). now rewrite H. Qed.
(** ** Every value is written as a text that is read back *)
Definition tokens_of (l : list str) (qs : list str) : Prop := Forall2 (fun s q => quote1 s = Ok q /\ token q /\ unquote q = Some s /\ plain q) l qs.
Lemma storable_tokens l : Forall storable l -> exists qs, quote_all l = Ok qs /\ tokens_of l qs.
Proof.
  induction 1 as [|s l S _ (qs & E & T)]; [exists []; split; [reflexivity|constructor]|]. destruct (quote1_token s S) as (q & E1 & Tq & U & _ & _ & Pq). exists (q :: qs). cbn [quote_all]. rewrite E1, E. split; [reflexivity|]. constructor; auto.
Qed.
Lemma join_glued qs q : join (L ", ") (qs ++ [q]) = glued (map (fun q => (q, L " ")) qs) ++ q.
Proof.
  induction qs as [|p qs IH]; [cbn [app join map]; reflexivity|]. cbn [app]. destruct (qs ++ [q]) as [|x r] eqn:E; [destruct qs; discriminate|]. change (join (L ", ") (p :: x :: r)) with (p ++ L ", " ++ join (L ", ") (x :: r)). rewrite IH. unfold glued. cbn [map List.concat fst snd]. rewrite <- !app_assoc. reflexivity.
Qed.
Lemma plain_one_line s : plain s -> one_line s. Proof. intros P. split; [now apply plain_nl|now apply plain_cr]. Qed.
Lemma one_line_app a b : one_line a -> one_line b -> one_line (a ++ b).
Proof. intros (H1 & H2) (H3 & H4). split; intros I'; apply in_app_or in I'; tauto. Qed.
Lemma quote_value v w com t : safe_value v -> tail_text w com t -> exists x, quote v = Ok x /\ line_value (x ++ t) = Done (v, com) /\ (exists a r, x = a :: r /\ is_space a = false) /\ one_line x.
Proof.
  intros S Ht. destruct v as [s|l].
  - destruct S as (P & B). assert (quote (Str s) = if mem sq s && mem dq s then triple_quote s else quote1 s) as ->.
    { unfold quote. destruct s as [|a s]; [reflexivity|]. assert (mem nl (a :: s) = false) as -> by (apply mem_false; now apply plain_nl). now rewrite orb_false_r. }
    destruct (mem sq s && mem dq s) eqn:E.
    + assert (both s) as Hb by (apply andb_true_iff in E; destruct E as (E1 & E2); split; now apply mem_spec). pose proof (B Hb) as TF.
      unfold triple_quote. rewrite !(triple_free_contains s) by auto. cbn [andb]. exists ([sq; sq; sq] ++ s ++ [sq; sq; sq]). split; [reflexivity|]. split; [|split].
      * destruct (triple_take sq s w com t) as (c & M & C1 & C2); [now right|now apply plain_nl|apply triple_free_contains; auto|exact Ht|]. rewrite <- !app_assoc in *. unfold line_value. cbn [app]. cbn [app] in M. change (Ascii.eqb sq sq && Ascii.eqb sq sq && (is dq sq || is sq sq)) with true. cbv iota. rewrite M, C1, C2. reflexivity.
      * exists sq, ([sq; sq] ++ s ++ [sq; sq; sq]). split; reflexivity.
      * apply one_line_app; [split; intros [H|[H|[H|[]]]]; discriminate|]. apply one_line_app; [now apply plain_one_line|split; intros [H|[H|[H|[]]]]; discriminate].
    + destruct (quote1_token s) as (q & E1 & Tq & U & _ & _ & Pq). { split; [exact P|]. intros ((B1 & B2) & _). apply mem_spec in B1, B2. unfold sq, dq in E. rewrite B1, B2 in E. discriminate. }
      exists q. split; [exact E1|]. split; [|split; [destruct (token_first q Tq) as (a & r & -> & Na); eauto|now apply plain_one_line]]. rewrite line_value_plain by (apply not_triple; [exact Tq|now apply (tail_first w com)]). now rewrite (handle_single q s w com t).
  - cbn [safe_value] in S. destruct (storable_tokens l S) as (qs & E & T). destruct T as [|s q l qs (E1 & Tq & U & Pq) T].
    + exists [comma]. split; [reflexivity|]. split; [|split; [exists comma, []; split; reflexivity|split; intros [H|[]]; discriminate]]. cbn [app]. rewrite line_value_plain by (destruct t as [|a [|b t']]; try reflexivity; unfold first_three; change (is dq comma || is sq comma) with false; now rewrite andb_false_r). now rewrite (handle_empty w com t).
    + destruct T as [|s2 q2 l qs H2 T].
      * exists (q ++ [comma]). unfold quote. rewrite E1. split; [reflexivity|]. split; [|split].
        -- rewrite <- app_assoc. cbn [app]. rewrite line_value_plain by (apply not_triple; [exact Tq|split; discriminate]). now rewrite (handle_one q s w com t).
        -- destruct (token_first q Tq) as (a & r & -> & Na). exists a, (r ++ [comma]). split; [reflexivity|exact Na].
        -- apply one_line_app; [now apply plain_one_line|split; intros [H|[]]; discriminate].
      * assert (Forall2 (fun s q => quote1 s = Ok q /\ token q /\ unquote q = Some s /\ plain q) (s :: s2 :: l) (q :: q2 :: qs)) as T' by (constructor; [auto|constructor; auto]).
        unfold quote. rewrite E. exists (join (L ", ") (q :: q2 :: qs)). split; [reflexivity|].
        destruct (@exists_last _ (q2 :: qs)) as (zq & lq & Eq); [discriminate|]. destruct (@exists_last _ (s2 :: l)) as (zs & ls & Es); [discriminate|]. 
        change (q :: q2 :: qs) with ([q] ++ q2 :: qs) in *. change (s :: s2 :: l) with ([s] ++ s2 :: l) in *. rewrite Eq, Es in *. rewrite !app_assoc in *. set (ps := [q] ++ zq) in *. set (ks := [s] ++ zs) in *.
        apply Forall2_app_inv_l in T'. destruct T' as (k1 & k2 & T1 & T2 & E3). inversion T2 as [|? x ? ? (F1 & F2 & F3 & F4) F5]; subst. inversion F5; subst. apply app_inj_tail in E3. destruct E3 as (<- & <-).
        rewrite join_glued. rewrite <- app_assoc.
        assert (good_items (map (fun q0 => (q0, L " ")) ps)) as G. { unfold good_items. clear - T1. induction T1 as [|a b l k (A1 & A2 & A3 & A4) _ IH]; cbn [map]; constructor; auto. }
        assert (Forall2 (fun (p : str * str) s => unquote (fst p) = Some s) (map (fun q0 => (q0, L " ")) ps) ks) as FF. { clear - T1. induction T1 as [|a b l k (A1 & A2 & A3 & A4) _ IH]; cbn [map]; constructor; auto. }
        assert (exists rest, glued (map (fun q0 => (q0, L " ")) ps) = q ++ comma :: rest) as (rest & Eg). { unfold ps. cbn [app map]. unfold glued. cbn [map List.concat fst snd]. rewrite <- app_assoc. cbn [app]. eauto. }
        split; [|split].
        -- rewrite line_value_plain; [|rewrite Eg, <- app_assoc; cbn [app]; apply not_triple; [exact Tq|split; discriminate]]. rewrite (handle_many _ lq ls w com t ks); auto. unfold ps. cbn [app map]. discriminate.
        -- rewrite Eg. destruct (token_first q Tq) as (a & r & -> & Na). exists a, ((r ++ comma :: rest) ++ lq). split; [reflexivity|exact Na].
        -- apply one_line_app; [|now apply plain_one_line]. unfold glued. clear - T1. induction T1 as [|a b l k (A1 & A2 & A3 & A4) _ IH]; cbn [map List.concat fst snd]; [split; intros []|]. apply one_line_app; [|exact IH]. apply one_line_app; [now apply plain_one_line|split; intros [H|[H|[]]]; discriminate].
Qed.
(** ** Lines *)
Definition names (q : str) : Prop := exists a r, q = a :: r /\ nospace a /\ a <> "["%char /\ a <> hash /\ nat_of_ascii a < 128.
Lemma marker_none q t : names q -> rmatch marker (q ++ t) = None.
Proof.
  intros (a & r & -> & S & N & _). unfold rmatch, marker. cbv zeta. cbn [app].
  cbn [seqs run lit1]. unfold nospace in S. cbn [many]. rewrite S. apply is_neq in N. now rewrite N.
Qed.
Lemma keyword_unfold s : rmatch keyword s = many is_space None s [] (fun pr t c =>
   run (alts [dquoted; squoted; seqs [RChr (none_of [sq; dq; "="%char]); RLazy dot]]) pr t ((1, taken s t) :: c) (fun pr t' c => run (seqs [RMany is_space; lit1 "="%char; seqs [RMany is_space; RGrp 3 (RMany dot); REnd]]) pr t' ((2, taken t t') :: c) (fun _ _ c => Some c))).
Proof. reflexivity. Qed.
Lemma equals_take a r pr c : is_space a = false -> ~ In nl (a :: r) -> run (seqs [RMany is_space; lit1 "="%char; seqs [RMany is_space; RGrp 3 (RMany dot); REnd]]) pr (L " = " ++ a :: r) c (fun _ _ c => Some c) = Some ((3, a :: r) :: c).
Proof.
  intros S N. change (L " = " ++ a :: r) with (L " " ++ "="%char :: L " " ++ a :: r). cbn [seqs run lit1]. apply many_take; [reflexivity|reflexivity|]. rewrite is_refl. apply many_take; [reflexivity|exact S|].
  rewrite <- (app_nil_r (a :: r)) at 1. apply many_take; [apply forallb_forall; intros b I'; apply dot_spec; intros ->; contradiction|exact I|]. rewrite <- (app_nil_r (a :: r)) at 1. now rewrite taken_app.
Qed.
Lemma keyword_take q v : token q -> (forall a r, q = a :: r -> a = dq \/ a = sq \/ ~ In "="%char q) -> (exists a r, v = a :: r /\ is_space a = false) -> ~ In nl v -> exists c, rmatch keyword (q ++ L " = " ++ v) = Some c /\ cap 1 c = Some [] /\ cap 2 c = Some q /\ cap 3 c = Some v.
Proof.
  intros T Q (a & r & -> & Sa) N. exists [(3, a :: r); (2, q); (1, [])]. split; [|auto]. rewrite keyword_unfold.
  change (q ++ L " = " ++ a :: r) with ([] ++ q ++ L " = " ++ a :: r) at 1. apply many_take; [reflexivity|destruct (token_first q T) as (b & s & -> & Nb); exact Nb|]. cbn [prv fold_left].
  assert (taken (q ++ L " = " ++ a :: r) (q ++ L " = " ++ a :: r) = []) as -> by (unfold taken; now rewrite Nat.sub_diag). cbn [alts run].
  assert (forall pr, run (seqs [RMany is_space; lit1 "="%char; seqs [RMany is_space; RGrp 3 (RMany dot); REnd]]) pr (L " = " ++ a :: r) ((2, taken (q ++ L " = " ++ a :: r) (L " = " ++ a :: r)) :: [(1, [])]) (fun _ _ c => Some c) = Some [(3, a :: r); (2, q); (1, [])]) as E by (intros pr; rewrite taken_app; now apply equals_take).
  inversion T as [s N1 N2|s N1 N2|b s F S1 S2 Nc Nh Nn]; subst q.
  - unfold dquoted. erewrite quoted_take; [reflexivity|assumption|assumption|apply E].
  - unfold dquoted at 1. unfold quoted at 1. cbn [app]. rewrite quote_first_none by discriminate. cbn [orelse]. unfold squoted. change (sq :: (s ++ [sq]) ++ L " = " ++ a :: r) with (quoted sq s ++ L " = " ++ a :: r). erewrite quoted_take; [reflexivity|assumption|assumption|apply E].
  - assert (~ In "="%char (b :: s)) as Ne. { destruct (Q b s eq_refl) as [-> |[-> |H]]; [exfalso; apply F; cbn; tauto|exfalso; apply F; cbn; tauto|exact H]. }
    cbn [app]. unfold dquoted, squoted. rewrite !quote_first_none by (intros ->; apply F; cbn; tauto). cbn [orelse]. change (seqs [RChr (none_of [sq; dq; "="%char]); RLazy dot]) with (RSeq (RChr (none_of [sq; dq; "="%char])) (RLazy dot)). cbn [run].
    assert (none_of [sq; dq; "="%char] b = true) as ->. { apply none_of_spec. intros [<-|[<-|[<-|[]]]]; [apply F; cbn; tauto|apply F; cbn; tauto|apply Ne; now left]. }
    apply lazy_take.
    + apply forallb_forall. intros d I'. apply dot_spec. intros ->. apply Nn. now right.
    + intros w1 d w2 pr' E2. rewrite seqs3. change (d :: w2 ++ L " = " ++ a :: r) with ((d :: w2) ++ L " = " ++ a :: r). apply (inside_none "="%char (d :: w2)); [now apply (bare_suffix b s w1)| |reflexivity]. intros I'. apply Ne. right. rewrite E2. apply in_or_app. now right.
    + apply E.
Qed.
Lemma strip_first a r : is_space a = false -> exists r', strip (a :: r) = a :: r'.
Proof.
  intros S. unfold strip. cbn [span]. rewrite S. cbn [snd]. unfold rstrip. assert (exists z, snd (span is_space (rev r ++ [a])) = z ++ [a]) as (z & E).
  { induction (rev r) as [|b l IH]; cbn [app span]; [rewrite S; exists []; reflexivity|]. destruct (is_space b); [|exists (b :: l); reflexivity]. destruct (span is_space (l ++ [a])). exact IH. }
  cbn [rev]. rewrite E, rev_app_distr. cbn [rev app]. eauto.
Qed.
Lemma names_not_skipped q t : names q -> skipped (q ++ t) = false.
Proof. intros (a & r & -> & S & _ & N & _). unfold skipped. cbn [app]. destruct (strip_first a (r ++ t) S) as (r' & ->). now apply is_neq. Qed.
(** a line says: key, value, comment *)
Definition reads (line k : str) (v : value) (com : str) : Prop :=
  skipped line = false /\ rmatch marker line = None /\ exists c t q, rmatch keyword line = Some c /\ cap 1 c = Some [] /\ cap 2 c = Some q /\ cap 3 c = Some t /\ line_value t = Done (v, com) /\ unquote q = Some k.
Lemma write_line_reads o e : safe_key (ekey e) -> safe_value (evalue e) -> safe_inline (einline e) -> safe_indent (indent o) -> exists line, write_line o e = Ok line /\ reads line (ekey e) (evalue e) (einline e) /\ one_line line /\ names line.
Proof.
  intros (Sk & K) Sv Si Sd. destruct (inline_tail o (einline e) Si Sd) as (w & Ht). destruct (quote_value _ w _ _ Sv Ht) as (x & Ex & Lx & Fx & Ox).
  destruct (quote1_token (ekey e) Sk) as (q & Eq & Tq & U & F & H & Pq). unfold write_line. rewrite Eq, Ex.
  assert (one_line (x ++ inline o (einline e))) as Ov. { apply one_line_app; [exact Ox|]. destruct Ht as (E & _ & _). unfold inline. destruct (einline e) as [|c r] eqn:Ee; [split; intros []|]. destruct Si as (Oi & _ & [Hi|(r' & Hi)]); [discriminate|]. injection Hi as -> ->. change (is hash "#"%char) with true. cbv iota. cbn [app]. apply one_line_app; [|exact Oi]. destruct (indent o); [apply Sd|split; intros [H1|[H1|[H1|[H1|[]]]]]; discriminate]. }
  assert (forall a r, q = a :: r -> a = dq \/ a = sq \/ ekey e = a :: r) as F' by (intros a r E; destruct (F a r E) as [H'|[H'|H']]; auto).
  assert (forall a r, q = a :: r -> a = dq \/ a = sq \/ ~ In "="%char q) as Fq.
  { intros a r E. destruct (F' a r E) as [H'|[H'|H']]; auto. destruct K as [K|(K & _)]; [destruct (H K) as (s & [E'|E']); rewrite E in E'; injection E' as -> _; auto|]. right. right. rewrite E, <- H'. exact K. }
  assert (names q) as Nq.
  { destruct (token_first q Tq) as (a & r & E & Na). exists a, r. split; [exact E|]. split; [exact Na|]. destruct (F' a r E) as [-> |[-> |H']]; [split; [discriminate|split; [discriminate|cbn; lia]]|split; [discriminate|split; [discriminate|cbn; lia]]|].
    destruct K as [K|(_ & K)]; [destruct (H K) as (s & [E'|E']); rewrite E in E'; injection E' as -> _; (split; [discriminate|split; [discriminate|cbn; lia]])|]. destruct (K a r H') as (K1 & K2). split; [exact K1|]. split; [|exact K2].
    rewrite E in Tq. inversion Tq as [s N1 N2 E'|s N1 N2 E'|a' s Fa S1 S2 Nc Nh Nn E']; unfold quoted in *; try congruence; try discriminate. intros ->. apply Nh. now left. }
  eexists. split; [reflexivity|]. destruct Fx as (a & r & -> & Sa). split; [|split].
  - split; [now apply names_not_skipped|]. split; [now apply marker_none|]. destruct (keyword_take q ((a :: r) ++ inline o (einline e)) Tq Fq) as (c & M & C1 & C2 & C3); [exists a, (r ++ inline o (einline e)); split; [reflexivity|exact Sa]|apply Ov|].
    exists c, ((a :: r) ++ inline o (einline e)), q. repeat split; assumption.
  - apply one_line_app; [now apply plain_one_line|]. apply one_line_app; [split; intros [H1|[H1|[H1|[]]]]; discriminate|exact Ov].
  - destruct Nq as (b & s & -> & N1). exists b, (s ++ L " = " ++ (a :: r) ++ inline o (einline e)). split; [reflexivity|exact N1].
Qed.
