(** * CfgLine: written lines are read back (C105) *)
From Coq Require Import List Bool Arith Ascii String Lia.
From Verif Require Import PyBase PubModel IoColumns CfgModel CfgRx.
Import ListNotations.

(** ** Specification: what can be stored *)
(** no line ends and no form feeds *)
Definition plain (s : str) : Prop := forall a, In a s -> ~ In (nat_of_ascii a) [10; 12; 13].
(** a string has to be put in quotes if it has a comma or #, or begins or ends with a quote or white space *)
Definition edge (a : ascii) : Prop := In a [" "%char; "'"%char; """"%char] \/ In (nat_of_ascii a) [9; 11].
Definition needs_quotes (s : str) : Prop := In ","%char s \/ In "#"%char s \/ (exists a r, s = a :: r /\ edge a) \/ (exists r a, s = r ++ [a] /\ edge a).
Definition both (s : str) : Prop := In "'"%char s /\ In """"%char s.
Definition storable (s : str) : Prop := plain s /\ ~ (both s /\ needs_quotes s).

Lemma plain_nl s : plain s -> ~ In nl s. Proof. intros P I'. apply (P nl I'). cbn. tauto. Qed.
Lemma plain_cr s : plain s -> ~ In cr s. Proof. intros P I'. apply (P cr I'). cbn. tauto. Qed.
Lemma space_char a : is_space a = true -> In (nat_of_ascii a) [9; 10; 11; 12; 13; 32].
Proof. unfold is_space. intros H. cbn [In]. destruct (Nat.eqb (nat_of_ascii a) 32) eqn:E; [apply Nat.eqb_eq in E; lia|]. rewrite orb_false_r in H. apply andb_true_iff in H. destruct H as (H1 & H2). apply Nat.leb_le in H1, H2. lia. Qed.
Lemma mem_wspace a : mem a wspace_plus = true <-> In (nat_of_ascii a) [32; 13; 10; 11; 9; 39; 34].
Proof.
  rewrite mem_spec. assert (map nat_of_ascii wspace_plus = [32; 13; 10; 11; 9; 39; 34]) as <- by reflexivity. rewrite in_map_iff. split; [intros I'; exists a; auto|]. intros (b & E & I'). 
  rewrite <- (ascii_nat_embedding a), <- E, ascii_nat_embedding. exact I'.
Qed.
Lemma nat_char n a : n < 256 -> nat_of_ascii a = n -> a = ascii_of_nat n.
Proof. intros _ <-. now rewrite ascii_nat_embedding. Qed.
Lemma edge_mem a : ~ In (nat_of_ascii a) [10; 12; 13] -> mem a wspace_plus = true -> edge a.
Proof.
  intros P H. apply mem_wspace in H. cbn [In] in H, P. unfold edge. cbn [In].
  destruct H as [H|[H|[H|[H|[H|[H|[H|[]]]]]]]]; symmetry in H; try (exfalso; lia); try (right; lia); left; apply nat_char in H; try lia; subst; cbn; tauto.
Qed.
Lemma not_edge_space a : ~ In (nat_of_ascii a) [10; 12; 13] -> mem a wspace_plus = false -> nospace a /\ a <> sq /\ a <> dq.
Proof.
  intros P H. assert (~ In (nat_of_ascii a) [32; 13; 10; 11; 9; 39; 34]) as N by (rewrite <- mem_wspace; congruence). split; [|split].
  - unfold nospace. destruct (is_space a) eqn:E; [|reflexivity]. apply space_char in E. cbn [In] in *. lia.
  - intros ->. apply N. cbn. tauto.
  - intros ->. apply N. cbn. tauto.
Qed.
Lemma last_snoc {A} (l : list A) z d x : l = z ++ [x] -> last l d = x.
Proof. intros ->. apply last_last. Qed.
Lemma unquote_quoted q s : q = dq \/ q = sq -> unquote (quoted q s) = Some s.
Proof.
  intros Q. unfold unquote, quoted. rewrite (last_snoc (q :: s ++ [q]) (q :: s) q q) by reflexivity. rewrite Ascii.eqb_refl. assert (is dq q || is sq q = true) as -> by (destruct Q as [-> | ->]; reflexivity). cbn [andb tl]. now rewrite removelast_last.
Qed.
Lemma unquote_bare a s : a <> dq -> a <> sq -> unquote (a :: s) = Some (a :: s).
Proof. intros N1 N2. unfold unquote. apply is_neq in N1, N2. rewrite N1, N2. now rewrite andb_false_r. Qed.
Lemma edge_mem_true a : edge a -> mem a wspace_plus = true.
Proof. intros [[<-|[<-|[<-|[]]]]|H]; try reflexivity. apply mem_wspace. cbn [In] in *. lia. Qed.
(** every storable string is written as a token that is unquoted to it *)
Lemma quote1_token s : storable s -> exists q, quote1 s = Ok q /\ token q /\ unquote q = Some s /\ (forall a r, q = a :: r -> s = a :: r \/ a = dq \/ a = sq) /\ (needs_quotes s -> exists r, q = dq :: r \/ q = sq :: r) /\ plain q.
Proof.
  intros (P & B). assert (forall q, q = dq \/ q = sq -> plain s -> plain (quoted q s)) as Pq. { intros q Q H a I'. unfold quoted in I'. destruct I' as [<-|I']; [destruct Q as [-> | ->]; cbn; lia|]. apply in_app_or in I'. destruct I' as [I'|[<-|[]]]; [now apply H|destruct Q as [-> | ->]; cbn; lia]. }
  assert (~ both s -> exists q, single_quote s = Ok q /\ token q /\ unquote q = Some s /\ (forall a r, q = a :: r -> s = a :: r \/ a = dq \/ a = sq) /\ (needs_quotes s -> exists r, q = dq :: r \/ q = sq :: r) /\ plain q) as S.
  { intros Nb. unfold single_quote. destruct (mem sq s) eqn:E1, (mem dq s) eqn:E2; rewrite ?mem_spec, ?mem_false in *; cbn [andb]; try (exfalso; apply Nb; split; assumption);
      eexists; (split; [reflexivity|]); (split; [first [now apply tok_dq; [|apply plain_nl]|now apply tok_sq; [|apply plain_nl]]|]); (split; [apply unquote_quoted; auto|]); (split; [intros a r E; injection E as <- _; auto|]); (split; [intros _; unfold quoted; eauto|apply Pq; auto]). }
  unfold quote1. destruct s as [|a s]; [exists [dq; dq]; split; [reflexivity|]; split; [exact (tok_dq [] (fun H => H) (fun H => H))|]; split; [reflexivity|]; split; [intros a r E; injection E as <- _; auto|]; split; [intros _; exists [dq]; now left|intros b [<-|[<-|[]]]; cbn; lia]|].
  assert (mem nl (a :: s) = false) as -> by (apply mem_false; now apply plain_nl).
  destruct (mem a wspace_plus) eqn:Ea; [apply S; intros Hb; apply B; split; [exact Hb|]; right; right; left; exists a, s; split; [reflexivity|]; apply edge_mem; [apply P; now left|exact Ea]|].
  destruct (@exists_last _ (a :: s)) as (z & l & El); [discriminate|]. rewrite (last_snoc _ _ a _ El).
  assert (In l (a :: s)) as Il by (rewrite El; apply in_or_app; right; now left).
  destruct (mem l wspace_plus) eqn:Ew; [apply S; intros Hb; apply B; split; [exact Hb|]; right; right; right; exists z, l; split; [exact El|]; apply edge_mem; [now apply P|exact Ew]|].
  destruct (mem comma (a :: s)) eqn:Ec; cbn [negb andb]; [apply S; intros Hb; apply B; split; [exact Hb|]; left; now apply mem_spec|].
  destruct (mem hash (a :: s)) eqn:Eh; [apply S; intros Hb; apply B; split; [exact Hb|]; right; left; now apply mem_spec|].
  assert (~ needs_quotes (a :: s)) as NQ.
  { intros [H|[H|[(b & r & E & H)|(r & b & E & H)]]]; [apply mem_false in Ec; contradiction|apply mem_false in Eh; contradiction| |]; apply edge_mem_true in H.
    - injection E as <- _. congruence.
    - rewrite El in E. apply app_inj_tail in E. destruct E as (_ & <-). congruence. }
  apply not_edge_space in Ea; [|apply P; now left]. apply not_edge_space in Ew; [|now apply P]. apply mem_false in Ec, Eh. destruct Ea as (Sa & Na1 & Na2).
  exists (a :: s). split; [reflexivity|]. split; [|split; [now apply unquote_bare|split; [auto|split; [intros; contradiction|exact P]]]]. apply tok_bare; auto.
  - intros [<-|[<-|[<-|[<-|[]]]]]; try congruence; [apply Ec; now left|apply Eh; now left].
  - intros z' l' E'. rewrite El in E'. apply app_inj_tail in E'. destruct E' as (_ & <-). tauto.
  - now apply plain_nl.
Qed.
Lemma token_first q : token q -> exists a r, q = a :: r /\ nospace a.
Proof. intros T. inversion T as [s N1 N2|s N1 N2|a s F S1 S2 Nc Nh Nn]; subst; [exists dq, (s ++ [dq])|exists sq, (s ++ [sq])|exists a, s]; split; try reflexivity. exact S1. Qed.
Lemma taken_app s t : taken (s ++ t) t = s.
Proof. unfold taken. rewrite app_length, Nat.add_sub, firstn_app, Nat.sub_diag, firstn_O, app_nil_r. apply firstn_all. Qed.

(** ** Values *)
Definition tail_text (w com t : str) : Prop := t = w ++ com /\ forallb is_space w = true /\ ~ In nl com /\ ~ In comma t /\ (com = [] \/ exists c, com = hash :: c).
Definition end_caps (com : str) (c : caps) : caps := match com with [] => c | _ => (4, com) :: c end.
(** a value at the end *)
Lemma single_take q w com t pr c : token q -> tail_text w com t -> 
  run (RSeq (ropt (RGrp 2 (alts [dquoted; squoted; seqs [RChr (fun a => none_of [sq; dq; comma; hash] a && negb (is_space a)); RLazy (none_of [comma])]; RNotAfter (is comma)]))) (comment_end 4)) pr (q ++ t) c (fun _ _ c => Some c)
  = Some (end_caps com ((2, q) :: c)).
Proof.
  intros T (-> & W & Nn & Nc & Hc). assert (forall pr', run (comment_end 4) pr' (w ++ com) ((2, q) :: c) (fun _ _ c => Some c) = Some (end_caps com ((2, q) :: c))) as E.
  { intros pr'. apply comment_end_take; [exact W| |reflexivity]. destruct Hc as [->|(r & ->)]; [now left|right; exists r; split; [reflexivity|intros H; apply Nn; now right]]. }
  unfold ropt. cbn [run alts]. 
  inversion T as [s N1 N2|s N1 N2|a s F S1 S2 Ncc Nh Nnn]; subst q.
  - unfold dquoted at 1. erewrite quoted_take; [reflexivity|assumption|assumption|]. cbv beta. rewrite taken_app. apply E.
  - unfold dquoted at 1. unfold quoted at 1. cbn [app]. rewrite quote_first_none by discriminate. cbn [orelse]. unfold squoted at 1. change (sq :: (s ++ [sq]) ++ w ++ com) with (quoted sq s ++ w ++ com). erewrite quoted_take; [reflexivity|assumption|assumption|]. cbv beta. rewrite taken_app. apply E.
  - cbn [app]. unfold dquoted at 1, squoted at 1. rewrite !quote_first_none by (intros ->; apply F; cbn; tauto). cbn [orelse seqs run].
    assert (none_of [sq; dq; comma; hash] a && negb (is_space a) = true) as ->. { apply andb_true_iff. split; [now apply none_of_spec|]. unfold nospace in S1. now rewrite S1. }
    erewrite lazy_take; [reflexivity| | |].
    + apply forallb_forall. intros b I'. apply none_of_spec. intros [<-|[]]. apply Ncc. now right.
    + intros w1 b w2 pr' E2. cbv beta. change (b :: w2 ++ w ++ com) with ((b :: w2) ++ w ++ com). apply comment_end_inside; [now apply (bare_suffix a s w1)|]. intros I'. apply Nh. right. rewrite E2. apply in_or_app. now right.
    + cbv beta. change (a :: s ++ w ++ com) with ((a :: s) ++ w ++ com). rewrite taken_app. apply E.
Qed.
(** items: every token with its comma and what separates it from the next *)
Definition glued (ps : list (str * str)) : str := List.concat (map (fun p => fst p ++ comma :: snd p) ps).
Definition good_items (ps : list (str * str)) : Prop := Forall (fun p => token (fst p) /\ forallb is_space (snd p) = true) ps.
Lemma star_items ps : forall n t pr c (k : @kont caps) x, good_items ps -> List.length (glued ps) <= n -> match t with a :: _ => is_space a = false | [] => True end ->
  (forall pr' n', star (run item) n' pr' t c k = Some x) -> star (run item) n pr (glued ps ++ t) c k = Some x.
Proof.
  induction ps as [|[q sp] ps IH]; intros n t pr c k x G Ln Ht E; [apply E|]. inversion G as [|? ? (T & S) G']; subst. cbn [fst snd] in *.
  change (glued ((q, sp) :: ps)) with ((q ++ comma :: sp) ++ glued ps) in *. replace (((q ++ comma :: sp) ++ glued ps) ++ t) with (q ++ comma :: sp ++ glued ps ++ t) by (rewrite <- !app_assoc; cbn [app]; reflexivity).
  rewrite !app_length in Ln. cbn [List.length] in Ln. destruct n as [|n]; [lia|]. cbn [star]. rewrite (item_take q sp (glued ps ++ t) pr c _ x T S); [reflexivity| |].
  - destruct ps as [|[q2 sp2] ps]; [exact Ht|]. inversion G' as [|? ? (T2 & _) _]; subst. cbn [fst] in T2. unfold glued. cbn [map List.concat fst snd app]. destruct (token_first q2 T2) as (a & r & -> & Na). exact Na.
  - assert (Nat.ltb (List.length (glued ps ++ t)) (List.length (q ++ comma :: sp ++ glued ps ++ t)) = true) as ->; [|apply IH; auto; lia].
    apply Nat.ltb_lt. rewrite (app_length q). cbn [List.length]. rewrite (app_length sp). lia.
Qed.

Definition last_value : rx := RSeq (ropt (RGrp 2 (alts [dquoted; squoted; seqs [RChr (fun a => none_of [sq; dq; comma; hash] a && negb (is_space a)); RLazy (none_of [comma])]; RNotAfter (is comma)]))) (comment_end 4).
Lemma valueexp_unfold s : rmatch valueexp s = orelse (star (run item) (List.length s) None s [] (fun pr t c => run last_value pr t ((1, taken s t) :: c) (fun _ _ c => Some c))) (run (RSeq (RGrp 3 (lit1 comma)) (comment_end 4)) None s [] (fun _ _ c => Some c)).
Proof. reflexivity. Qed.
Lemma items_last ps q w com t : good_items ps -> token q -> tail_text w com t -> rmatch valueexp (glued ps ++ q ++ t) = Some (end_caps com [(2, q); (1, glued ps)]).
Proof.
  intros G T Ht. rewrite valueexp_unfold. rewrite (star_items ps _ (q ++ t) None [] _ (end_caps com [(2, q); (1, glued ps)])); [reflexivity|exact G|rewrite app_length; lia| |].
  - destruct (token_first q T) as (a & r & -> & Na). exact Na.
  - intros pr' n'. assert (run last_value pr' (q ++ t) ((1, taken (glued ps ++ q ++ t) (q ++ t)) :: []) (fun _ _ c => Some c) = Some (end_caps com [(2, q); (1, glued ps)])) as E.
    { rewrite taken_app. now apply (single_take q w com). }
    destruct n' as [|n']; cbn [star]; [exact E|]. destruct Ht as (-> & W & Nn & Nc & Hc). rewrite item_none by assumption. cbn [orelse]. exact E.
Qed.
Lemma hash_or_none com pr c (k : @kont caps) : com = [] \/ (exists r, com = hash :: r) -> run item pr com c k = None.
Proof. intros [->|(r & ->)]; [reflexivity|]. rewrite item_unfold. unfold dquoted, squoted. rewrite !quote_first_none by discriminate. reflexivity. Qed.
(** an item with its comma *)
Lemma item_only q w com t : token q -> tail_text w com t -> exists c, rmatch valueexp (q ++ comma :: t) = Some c /\ cap 1 c = Some (q ++ comma :: w) /\ (cap 2 c = None \/ cap 2 c = Some []) /\ cap 3 c = None /\ text_of (cap 4 c) = com.
Proof.
  intros T (-> & W & Nn & Nc & Hc). rewrite valueexp_unfold.
  assert (forall pr, exists c, run last_value pr com [(1, q ++ comma :: w)] (fun _ _ c => Some c) = Some c /\ cap 1 c = Some (q ++ comma :: w) /\ (cap 2 c = None \/ cap 2 c = Some []) /\ cap 3 c = None /\ text_of (cap 4 c) = com) as E.
  { intros pr. assert (forall c, cap 4 c = None -> forall pr', run (comment_end 4) pr' com c (fun _ _ c => Some c) = Some (end_caps com c)) as C.
    { intros c _ pr'. change com with ([] ++ com) at 1. apply comment_end_take; [reflexivity| |reflexivity]. destruct Hc as [->|(r & ->)]; [now left|right; exists r; split; [reflexivity|intros H; apply Nn; now right]]. }
    assert (forall c, cap 1 c = Some (q ++ comma :: w) -> cap 2 c = None \/ cap 2 c = Some [] -> cap 3 c = None -> cap 4 c = None -> cap 1 (end_caps com c) = Some (q ++ comma :: w) /\ (cap 2 (end_caps com c) = None \/ cap 2 (end_caps com c) = Some []) /\ cap 3 (end_caps com c) = None /\ text_of (cap 4 (end_caps com c)) = com) as CC.
    { intros c H1 H2 H3 H4. unfold end_caps. destruct com; cbn [cap Nat.eqb text_of]; [rewrite H4; auto|auto]. }
    unfold last_value. set (ce := comment_end 4) in *. unfold ropt. cbn [run alts].
    assert (forall k : @kont caps, run dquoted pr com [(1, q ++ comma :: w)] k = None) as D1. { intros k. destruct Hc as [->|(r & ->)]; [reflexivity|]. unfold dquoted. now rewrite quote_first_none. }
    assert (forall k : @kont caps, run squoted pr com [(1, q ++ comma :: w)] k = None) as D2. { intros k. destruct Hc as [->|(r & ->)]; [reflexivity|]. unfold squoted. now rewrite quote_first_none. }
    rewrite D1, D2. cbn [orelse]. match goal with |- context [orelse ?a (match pr with _ => _ end)] => assert (a = None) as -> by (destruct Hc as [->|(r & ->)]; reflexivity) end. cbn [orelse].
    assert (taken com com = []) as Et by (unfold taken; now rewrite Nat.sub_diag).
    assert (forall pr', run ce pr' com [(2, []); (1, q ++ comma :: w)] (fun _ _ c => Some c) = Some (end_caps com [(2, []); (1, q ++ comma :: w)])) as R1 by (intros; now apply C).
    assert (forall pr', run ce pr' com [(1, q ++ comma :: w)] (fun _ _ c => Some c) = Some (end_caps com [(1, q ++ comma :: w)])) as R2 by (intros; now apply C).
    rewrite ?Et. destruct pr as [a|]; [destruct (is comma a)|]; cbn [orelse]; rewrite ?R1, ?R2; eexists; (split; [reflexivity|]); apply CC; cbn; auto. }
  destruct (E (prv (Some comma) w)) as (c & E1 & Ec). exists c. split; [|exact Ec].
  destruct (List.length (q ++ comma :: w ++ com)) as [|n] eqn:Ln; [rewrite app_length in Ln; cbn [List.length] in Ln; lia|]. cbn [star].
  rewrite (item_take q w com None [] _ c T W); [reflexivity|destruct Hc as [->|(r & ->)]; [exact I|reflexivity]|].
  assert (Nat.ltb (List.length com) (List.length (q ++ comma :: w ++ com)) = true) as -> by (apply Nat.ltb_lt; rewrite app_length; cbn [List.length]; rewrite app_length; lia).
  assert (taken (q ++ comma :: w ++ com) com = q ++ comma :: w) as Et by (replace (q ++ comma :: w ++ com) with ((q ++ comma :: w) ++ com) by (rewrite <- app_assoc; reflexivity); apply taken_app).
  destruct n as [|n]; cbn [star]; rewrite ?Et; [exact E1|]. rewrite hash_or_none by exact Hc. cbn [orelse]. exact E1.
Qed.
Lemma comma_only w com t : tail_text w com t -> rmatch valueexp (comma :: t) = Some (end_caps com [(3, [comma])]).
Proof.
  intros (-> & W & Nn & Nc & Hc). rewrite valueexp_unfold. cbn [List.length star]. rewrite item_unfold. unfold dquoted, squoted. rewrite !quote_first_none by discriminate. cbn [orelse seqs run]. change (none_of [sq; dq; comma; hash] comma) with false. cbv iota. cbn [orelse].
  assert (run last_value None (comma :: w ++ com) [(1, taken (comma :: w ++ com) (comma :: w ++ com))] (fun _ _ c => Some c) = None) as ->; [|cbn [orelse run lit1]; rewrite is_refl].
  - unfold last_value. assert (forall pr' c, run (comment_end 4) pr' (comma :: w ++ com) c (fun (_ : option ascii) (_ : str) (c : caps) => Some c) = None) as C by (intros; apply (comment_end_inside 4 [comma]); [exists comma; split; [now left|reflexivity]|intros [H|[]]; discriminate]).
    set (ce := comment_end 4) in *. unfold ropt. cbn [run alts]. unfold dquoted, squoted. rewrite !quote_first_none by discriminate. cbn [orelse seqs run]. change (none_of [sq; dq; comma; hash] comma && negb (is_space comma)) with false. cbv iota. cbn [orelse]. rewrite C. cbn [orelse]. apply C.
  - change (taken (comma :: w ++ com) (w ++ com)) with (taken ([comma] ++ w ++ com) (w ++ com)). rewrite taken_app. apply comment_end_take; [exact W| |reflexivity]. destruct Hc as [->|(r & ->)]; [now left|right; exists r; split; [reflexivity|intros H; apply Nn; now right]].
Qed.
(** ** The elements of a list *)
Section Z.
Context {X : Type}.
Implicit Types (k : @kont X) (x : X).
Lemma listvalue_unfold s pr c k : run listvalueexp pr s c k =
  let e := fun pr t c => run (seqs [RMany is_space; lit1 comma; RMany is_space]) pr t ((1, taken s t) :: c) k in
  orelse (run dquoted pr s c e) (orelse (run squoted pr s c e) (run (RSeq (ropt (RChr (none_of [sq; dq; comma; hash]))) (RLazy dot)) pr s c e)).
Proof. reflexivity. Qed.
Lemma listvalue_take q sp t pr c k x : token q -> forallb is_space sp = true -> match t with a :: _ => is_space a = false | [] => True end -> k (prv (Some comma) sp) t ((1, q) :: c) = Some x -> run listvalueexp pr (q ++ comma :: sp ++ t) c k = Some x.
Proof.
  intros T S Ht E. rewrite listvalue_unfold. cbv zeta.
  assert (forall pr', run (seqs [RMany is_space; lit1 comma; RMany is_space]) pr' (comma :: sp ++ t) ((1, taken (q ++ comma :: sp ++ t) (comma :: sp ++ t)) :: c) k = Some x) as C by (intros pr'; rewrite taken_app; apply comma_take; auto).
  inversion T as [s N1 N2|s N1 N2|a s F S1 S2 Nc Nh Nn]; subst q.
  - unfold dquoted. erewrite quoted_take; [reflexivity|assumption|assumption|apply C].
  - unfold dquoted at 1. unfold quoted at 1. cbn [app]. rewrite quote_first_none by discriminate. cbn [orelse]. unfold squoted. change (sq :: (s ++ [sq]) ++ comma :: sp ++ t) with (quoted sq s ++ comma :: sp ++ t). erewrite quoted_take; [reflexivity|assumption|assumption|apply C].
  - cbn [app]. unfold dquoted, squoted. rewrite !quote_first_none by (intros ->; apply F; cbn; tauto). cbn [orelse]. unfold ropt. cbn [run].
    assert (none_of [sq; dq; comma; hash] a = true) as -> by (now apply none_of_spec). erewrite lazy_take; [reflexivity| | |].
    + apply forallb_forall. intros b I'. apply dot_spec. intros ->. apply Nn. now right.
    + intros w1 b w2 pr' E2. cbv beta. rewrite seqs3. apply (inside_none comma (b :: w2)); [now apply (bare_suffix a s w1)| |reflexivity]. intros I'. apply Nc. right. rewrite E2. apply in_or_app. now right.
    + cbv beta. apply C.
Qed.
End Z.
Lemma findall_glued ps : forall n pr, good_items ps -> List.length (glued ps) < n -> findall n listvalueexp pr (glued ps) = map fst ps.
Proof.
  induction ps as [|[q sp] ps IH]; intros n pr G Ln; [destruct n; [cbn in Ln; lia|reflexivity]|]. inversion G as [|? ? (T & S) G']; subst. cbn [fst snd] in *.
  change (glued ((q, sp) :: ps)) with ((q ++ comma :: sp) ++ glued ps) in *. rewrite !app_length in Ln. cbn [List.length] in Ln. destruct n as [|n]; [lia|]. rewrite <- app_assoc. cbn [app findall].
  rewrite (listvalue_take q sp (glued ps) pr [] _ (prv (Some comma) sp, glued ps, [(1, q)]) T S); [|destruct ps as [|[q2 sp2] ps]; [exact I|]; inversion G' as [|? ? (T2 & _) _]; subst; cbn [fst] in T2; unfold glued; cbn [map List.concat fst snd app]; destruct (token_first q2 T2) as (a & r & -> & Na); exact Na|reflexivity].
  cbn [cap Nat.eqb map fst]. f_equal. apply IH; [exact G'|lia].
Qed.
Lemma cap_end4 com c : cap 4 c = None -> text_of (cap 4 (end_caps com c)) = com.
Proof. intros H. unfold end_caps. destruct com; cbn [cap Nat.eqb]; [now rewrite H|reflexivity]. Qed.
Lemma cap_end com c n : n <> 4 -> cap n (end_caps com c) = cap n c.
Proof. intros H. unfold end_caps. destruct com; [reflexivity|]. cbn [cap]. apply Nat.eqb_neq in H. now rewrite H. Qed.
Lemma handle_single q s w com t : token q -> unquote q = Some s -> tail_text w com t -> handle_value (q ++ t) = Some (Str s, com).
Proof.
  intros T U Ht. unfold handle_value. assert (rmatch valueexp (q ++ t) = Some (end_caps com [(2, q); (1, glued [])])) as -> by (apply (items_last [] q w com t); [constructor|exact T|exact Ht]).
  rewrite !cap_end by lia. cbn [cap Nat.eqb glued map List.concat]. rewrite cap_end4 by reflexivity. destruct (token_first q T) as (a & r & -> & _). rewrite U. reflexivity.
Qed.
Lemma mapO_all {A B} (f : A -> option B) l k : Forall2 (fun a b => f a = Some b) l k -> mapO f l = Some k.
Proof. induction 1 as [|a b l k E _ IH]; [reflexivity|]. cbn [mapO]. now rewrite E, IH. Qed.
Lemma glued_nonempty ps : ps <> [] -> exists a r, glued ps = a :: r.
Proof. destruct ps as [|[q sp] ps]; [contradiction|]. intros _. unfold glued. cbn [map List.concat fst snd]. destruct q; cbn [app]; eauto. Qed.
Lemma handle_many ps q s w com t ks : good_items ps -> ps <> [] -> token q -> unquote q = Some s -> tail_text w com t -> Forall2 (fun p s => unquote (fst p) = Some s) ps ks -> handle_value (glued ps ++ q ++ t) = Some (Lst (ks ++ [s]), com).
Proof.
  intros G Ne T U Ht F. unfold handle_value. rewrite (items_last ps q w com t G T Ht). rewrite !cap_end by lia. cbn [cap Nat.eqb]. rewrite cap_end4 by reflexivity.
  assert (mapO unquote (findall (S (List.length (glued ps))) listvalueexp None (glued ps)) = Some ks) as M. { rewrite findall_glued by (try assumption; lia). apply mapO_all. clear - F. induction F; cbn [map]; constructor; auto. }
  destruct (glued_nonempty ps Ne) as (b & rr & Eg). rewrite Eg in *. destruct (token_first q T) as (a & r & -> & _). rewrite U. cbn [option_map]. rewrite M. reflexivity.
Qed.
Lemma handle_one q s w com t : token q -> unquote q = Some s -> tail_text w com t -> handle_value (q ++ comma :: t) = Some (Lst [s], com).
Proof.
  intros T U Ht. unfold handle_value. destruct (item_only q w com t T Ht) as (c & -> & C1 & C2 & C3 & C4). rewrite C1, C3, C4.
  assert (findall (S (List.length (q ++ comma :: w))) listvalueexp None (q ++ comma :: w) = [q]) as Fa. { pose proof (findall_glued [(q, w)] (S (List.length (q ++ comma :: w))) None) as H. unfold glued in H. cbn [map List.concat fst snd] in H. rewrite app_nil_r in H. apply H; [constructor; [cbn [fst snd]; split; [exact T|]; destruct Ht as (_ & W & _); exact W|constructor]|lia]. }
  destruct (token_first q T) as (a & r & -> & _). cbn [app] in *. assert (mapO unquote (findall (S (List.length (a :: r ++ comma :: w))) listvalueexp None (a :: r ++ comma :: w)) = Some [s]) as M by (rewrite Fa; cbn [mapO]; now rewrite U).
  destruct C2 as [-> | ->]; rewrite M; reflexivity.
Qed.
Lemma handle_empty w com t : tail_text w com t -> handle_value (comma :: t) = Some (Lst [], com).
Proof. intros Ht. unfold handle_value. rewrite (comma_only w com t Ht). rewrite !cap_end by lia. cbn [cap Nat.eqb]. now rewrite cap_end4. Qed.

(** ** Three quotes *)
Lemma contains_here (p s t : str) : s = p ++ t -> contains p s = true.
Proof.
  intros ->. assert (prefix p (p ++ t) = true) as P by (induction p as [|a p IH]; [reflexivity|]; cbn [app prefix]; now rewrite Ascii.eqb_refl). destruct (p ++ t); cbn [contains]; rewrite P; reflexivity.
Qed.
Lemma contains_app (p s t : str) : contains p t = true -> contains p (s ++ t) = true.
Proof. intros H. induction s as [|a s IH]; [exact H|]. cbn [app contains]. apply orb_true_iff. now right. Qed.
Lemma triple_take q s w com t : q = dq \/ q = sq -> ~ In nl s -> contains [q; q; q] s = false -> tail_text w com t -> exists c, rmatch (triple q) ([q; q; q] ++ s ++ [q; q; q] ++ t) = Some c /\ cap 1 c = Some s /\ text_of (cap 2 c) = com.
Proof.
  intros Q Nn Nc (-> & W & Nnl & Ncm & Hc). exists (match com with [] => [(1, s)] | _ => [(2, com); (1, s)] end). split; [|destruct com; cbn; auto].
  unfold rmatch, triple. set (ce := comment_end 2). cbn [seqs run lit1 app]. rewrite is_refl. apply lazy_take.
  - apply forallb_forall. intros a I'. apply dot_spec. intros ->. contradiction.
  - intros w1 a w2 pr' E. assert (forall pr' u c, run ce pr' (q :: u) c (fun _ _ c0 => Some c0) = None) as C.
    { intros. apply (comment_end_inside 2 [q]); [exists q; split; [now left|destruct Q as [-> | ->]; reflexivity]|intros [H|[]]; destruct Q as [-> | ->]; discriminate]. }
    destruct (is q a) eqn:Ea; [|reflexivity]. apply is_eq in Ea. subst a. destruct w2 as [|b w2]; cbn [app]; [rewrite is_refl; apply C|]. destruct (is q b) eqn:Eb; [|reflexivity]. apply is_eq in Eb. subst b.
    destruct w2 as [|d w2]; cbn [app]; [rewrite is_refl; apply C|]. destruct (is q d) eqn:Ed; [|reflexivity]. apply is_eq in Ed. subst d. exfalso.
    assert (contains [q; q; q] s = true); [|congruence]. rewrite E. apply contains_app. now apply (contains_here _ _ w2).
  - rewrite is_refl. match goal with |- run ce _ _ ((1, ?x) :: _) _ = _ => assert (x = s) as -> by (change (q :: q :: q :: w ++ com) with ([q; q; q] ++ w ++ com); rewrite taken_app; reflexivity) end.
    apply comment_end_take; [exact W| |intros pr'; destruct com; reflexivity]. destruct Hc as [->|(r & ->)]; [now left|right; exists r; split; [reflexivity|intros H; apply Nnl; now right]].
Qed.
