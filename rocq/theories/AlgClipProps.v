(** * AlgClipProps: C27 (sigma_clip) *)
From Coq Require Import Reals ZArith List Bool Arith Lia Lra Sorted Permutation.
From Verif Require Import PyBase AlgModel AlgClip.
Import ListNotations.
Open Scope R_scope.

(** the elements of [d] where the mask [m] is True, in order *)
Definition kept (d : list R) (m : list bool) : list R := map fst (filter snd (combine d m)).
(** Clipping with n+1 passes, in terms of the result for n passes: the mask has the data's length, the returned data are those where it is
    True, and a datum is kept exactly if its squared distance from the background of the previous result is at most sig^2 times that
    result's variance.  Zero passes keep everything. *)
Theorem C27_passes : forall fuel d sig cen vf, 
  sigma_clip fuel d sig (Some 0%nat) cen vf = Ok (d, map (fun _ => true) d) /\
  forall n, exists s m s' m', sigma_clip fuel d sig (Some n) cen vf = Ok (s, m) /\ sigma_clip fuel d sig (Some (S n)) cen vf = Ok (s', m') /\
   length m' = length d /\ s' = kept d m' /\
   forall k x, nth_error d k = Some x -> 
     (nth_error m' k = Some true <-> exists c v, background s cen = Some c /\ vf s = Some v /\ (x - c)^2 <= v * sig^2).
Proof.
  intros fuel d sig cen vf. split; [cbn; now rewrite select_all|]. intros n. unfold sigma_clip. set (m0 := map _ d). rewrite clipn_S. set (m := clipn vf cen sig d n m0).
  exists (select d m), m, (select d (clip1 vf cen sig d m)), (clip1 vf cen sig d m). split; [reflexivity|]. split; [reflexivity|].
  split; [apply clip1_length|]. split; [apply select_filter|]. intros k x Hk. unfold clip1. rewrite nth_error_map, Hk. cbn [option_map]. split.
  - intros E. injection E as E. destruct (background (select d m) cen) as [c|]; [|discriminate]. destruct (vf (select d m)) as [v|]; [|discriminate].
    exists c, v. split; [auto|]. split; [auto|]. unfold Rleb in E. destruct (Rle_dec _ _); [|discriminate]. nra.
  - intros (c & v & -> & -> & H). unfold Rleb. destruct (Rle_dec _ _) as [|Q]; [reflexivity|]. exfalso. apply Q. nra.
Qed.
Print Assumptions C27_passes.
(** With iters=None: the result, if the loop ends, is the one of the first pass that keeps as many data as the pass before it; and the
    loop ends if there is such a pass. *)
Definition nkept (r : @res (list R * list bool)) : option nat := match r with Ok (s, _) => Some (length s) | _ => None end.
Theorem C27_iterate : forall d sig cen vf, let clip k := sigma_clip 0 d sig (Some k) cen vf in
  (forall fuel r, sigma_clip fuel d sig None cen vf = Ok r -> exists n, Ok r = clip (S n) /\ nkept (clip (S n)) = nkept (clip n) /\
     forall k, (k < n)%nat -> nkept (clip (S k)) <> nkept (clip k)) /\
  (forall n, nkept (clip (S n)) = nkept (clip n) -> exists fuel r, sigma_clip fuel d sig None cen vf = Ok r).
Proof.
  intros d sig cen vf. cbv zeta. set (m0 := map (fun _ => true) d). set (mk := fun k => clipn vf cen sig d k m0).
  assert (forall k, length (mk k) = length d) as Lk by (intros k; apply clipn_length; unfold m0; apply map_length).
  assert (forall k, nkept (sigma_clip 0 d sig (Some k) cen vf) = Some (count (mk k))) as Nk by (intros k; cbn; f_equal; apply select_count, Lk).
  assert (forall k, clip1 vf cen sig d (mk k) = mk (S k)) as Sk by (intros k; symmetry; apply clipn_S).
  assert (forall fuel k m, clipall fuel vf cen sig d (count (mk k)) (mk (S k)) = Ok m -> (forall j, (j < k)%nat -> count (mk (S j)) <> count (mk j)) ->
    exists n, m = mk (S n) /\ count (mk (S n)) = count (mk n) /\ forall j, (j < n)%nat -> count (mk (S j)) <> count (mk j)) as A.
  { induction fuel as [|fuel IH]; intros k m; [discriminate|]. cbn [clipall]. destruct (Nat.eqb_spec (count (mk (S k))) (count (mk k))) as [E|E].
    - intros Em Hk. injection Em as <-. exists k. auto.
    - rewrite Sk. intros Em Hk. apply IH in Em; [auto|]. intros j Hj. destruct (Nat.eq_dec j k) as [->|]; [auto|apply Hk; lia]. }
  split.
  - intros fuel r Hr. unfold sigma_clip in Hr. fold m0 in Hr. change m0 with (mk 0%nat) in Hr. revert Hr. destruct fuel as [|fuel]; [discriminate|]. cbn [clipall].
    destruct (Nat.eqb_spec (count (mk 0%nat)) (count (mk 0%nat) + 1)); [lia|]. rewrite Sk. destruct (clipall fuel vf cen sig d (count (mk 0%nat)) (mk 1%nat)) as [m| |] eqn:E; try discriminate.
    intros Er. injection Er as <-. destruct (A fuel 0%nat m E) as (n1 & -> & B & C); [lia|]. exists n1. split; [reflexivity|]. rewrite !Nk. split; [congruence|].
    intros k Hk. rewrite !Nk. intros Q. injection Q. now apply C.
  - intros n. rewrite !Nk. intros Q. assert (count (mk (S n)) = count (mk n)) as Q' by congruence. clear Q.
    assert (forall j k, (k + j = n)%nat -> exists m, clipall (S j) vf cen sig d (count (mk k)) (mk (S k)) = Ok m) as T.
    { induction j as [|j IH]; intros k Hk.
      - assert (k = n) as -> by lia. exists (mk (S n)). cbn [clipall]. rewrite Q', Nat.eqb_refl. reflexivity.
      - cbn [clipall]. destruct (Nat.eqb_spec (count (mk (S k))) (count (mk k))); [eauto|]. rewrite Sk. apply (IH (S k)). lia. }
    destruct (T n 0%nat eq_refl) as (m & E). exists (S (S n)), (select d m, m). unfold sigma_clip. fold m0. change m0 with (mk 0%nat).
    change (clipall (S (S n)) vf cen sig d (count (mk 0%nat) + 1) (mk 0%nat)) with (if (count (mk 0%nat) =? count (mk 0%nat) + 1)%nat then Ok (mk 0%nat) else clipall (S n) vf cen sig d (count (mk 0%nat)) (clip1 vf cen sig d (mk 0%nat))).
    destruct (Nat.eqb_spec (count (mk 0%nat)) (count (mk 0%nat) + 1)); [lia|]. rewrite Sk, E. reflexivity.
Qed.
Print Assumptions C27_iterate.
(** The kept data form an interval: a datum between two kept ones is kept. *)
Lemma kept_clip d (p : R -> bool) : kept d (map p d) = filter p d.
Proof. unfold kept. rewrite <- select_filter. apply select_map. Qed.
Theorem C27_interval : forall fuel d sig cen vf iters s m x y z, sigma_clip fuel d sig iters cen vf = Ok (s, m) ->
  In x s -> In z s -> In y d -> x <= y <= z -> In y s.
Proof.
  intros fuel d sig cen vf iters s m x y z E Hx Hz Hy H.
  assert (forall n, s = select d (clipn vf cen sig d n (map (fun _ => true) d)) -> In y s) as K.
  { intros [|n] ->; [cbn; rewrite select_all; auto|]. rewrite clipn_S in *. unfold clip1 in *. set (q := select d (clipn vf cen sig d n (map (fun _ => true) d))) in *. clearbody q. rewrite select_map in Hx, Hz |- *. apply filter_In in Hx, Hz. apply filter_In. split; [auto|].
    destruct (background q cen) as [c|]; [|destruct Hx; discriminate]. destruct (vf q) as [v|]; [|destruct Hx; discriminate].
    destruct Hx as (_ & Hx), Hz as (_ & Hz). unfold Rleb in *. destruct (Rle_dec ((x - c) * (x - c)) _); [|discriminate]. destruct (Rle_dec ((z - c) * (z - c)) _); [|discriminate].
    destruct (Rle_dec ((y - c) * (y - c)) _) as [|Q]; [reflexivity|]. exfalso. apply Q. destruct (Rle_dec c y); [apply Rle_trans with ((z - c) * (z - c))|apply Rle_trans with ((x - c) * (x - c))]; nra. }
  destruct iters as [n|].
  - apply (K n). cbn in E. congruence.
  - destruct (C27_iterate d sig cen vf) as (A & _). destruct (A fuel _ E) as (n & En & _). apply (K (S n)). cbn in En. cbn. congruence.
Qed.
Print Assumptions C27_interval.

(** ** Median or mean, and the variance *)
Definition average (c : method) : Prop := c = MMedian \/ c = MMean.
Lemma average_near c l m v : average c -> l <> [] -> background l c = Some m -> var l = Some v -> exists x, In x l /\ (x - m) * (x - m) <= v.
Proof. intros [-> | ->]; cbn; [apply near_median|apply near_mean]. Qed.
Lemma average_some c l : average c -> l <> [] -> exists m v, background l c = Some m /\ var l = Some v /\ 0 <= v.
Proof.
  intros Ha Hn. destruct (var_mean l Hn) as (m & v & Em & Ev & _ & Hv). destruct Ha as [-> | ->]; cbn; [rewrite median_some by auto|rewrite Em]; eauto.
Qed.
Lemma clipn_keeps c sig d n : average c -> 1 <= sig * sig -> d <> [] -> select d (clipn var c sig d n (map (fun _ => true) d)) <> [].
Proof.
  intros Ha Hs Hn. induction n as [|n IH]; [cbn; now rewrite select_all|]. rewrite clipn_S. set (q := select d (clipn var c sig d n (map (fun _ => true) d))) in *.
  destruct (average_some c q Ha IH) as (m & v & Em & Ev & Hv). destruct (average_near c q m v Ha IH Em Ev) as (x & Hx & Hd).
  unfold clip1. fold q. rewrite select_map. assert (In x (filter (fun x => match background q c with Some c => match var q with Some v => Rleb ((x - c) * (x - c)) (v * (sig * sig)) | None => false end | None => false end) d)) as H.
  { apply filter_In. split; [unfold q in Hx; now apply select_In in Hx|]. rewrite Em, Ev. unfold Rleb. destruct (Rle_dec _ _) as [|Q]; [reflexivity|]. exfalso. apply Q. nra. }
  intros E. rewrite E in H. destruct H.
Qed.
(** With the median or mean as centre and a limit of at least one standard deviation, something is always kept. *)
Theorem C27_never_empty : forall fuel d sig cen iters s m, average cen -> 1 <= sig^2 -> d <> [] ->
  sigma_clip fuel d sig iters cen var = Ok (s, m) -> s <> [].
Proof.
  intros fuel d sig cen iters s m Ha Hs Hn E. assert (1 <= sig * sig) as Hs' by nra. destruct iters as [n|].
  - cbn in E. pose proof (clipn_keeps cen sig d n Ha Hs' Hn). congruence.
  - destruct (C27_iterate d sig cen var) as (A & _). destruct (A fuel _ E) as (n & En & _). pose proof (clipn_keeps cen sig d (S n) Ha Hs' Hn). cbn in En, H. congruence.
Qed.
Print Assumptions C27_never_empty.
(** Data that are all equal are all kept. *)
Theorem C27_constant : forall fuel c sig cen n k, average cen -> sigma_clip fuel (repeat c (S k)) sig (Some n) cen var = Ok (repeat c (S k), repeat true (S k)).
Proof.
  intros fuel c sig cen n k Ha. unfold sigma_clip. set (d := repeat c (S k)). assert (forall f : R -> bool, f c = true -> map f d = repeat true (S k)) as Mp.
  { intros f Hf. unfold d. generalize (S k). induction n0; cbn; [auto|]. now rewrite Hf, IHn0. }
  assert (forall j, select d (repeat true j) = firstn j d) as Sel. { intros j. generalize d. induction j as [|j IH]; intros [|x l]; cbn; auto. now rewrite IH. }
  assert (clipn var cen sig d n (map (fun _ => true) d) = repeat true (S k)) as ->.
  { induction n as [|n IH]; [cbn [clipn]; now apply Mp|]. rewrite clipn_S, IH. unfold clip1. rewrite Sel. assert (firstn (S k) d = d) as -> by (apply firstn_all2; unfold d; rewrite repeat_length; lia).
    apply Mp. destruct (average_some cen d Ha ltac:(discriminate)) as (m & v & Em & Ev & Hv). destruct (average_near cen d m v Ha ltac:(discriminate) Em Ev) as (x & Hx & Hd). rewrite Em, Ev.
    apply repeat_spec in Hx. subst x. destruct (var_mean d ltac:(discriminate)) as (mu & v' & Emu & Ev' & Hs & _). assert (v' = v) as -> by congruence.
    assert (mu = c) as ->. { assert (rsum d = rlen d * c) as Rs. { unfold d, rlen. generalize (S k). induction n0; [cbn; ring|]. cbn [repeat length]. rewrite S_INR. unfold rsum in *. cbn [fold_right]. rewrite IHn0. ring. }
      rewrite mean_some in Emu by discriminate. pose proof (rlen_pos d ltac:(discriminate)). assert (rsum d / rlen d = mu) as <- by congruence. rewrite Rs. field. lra. }
    assert (v = 0) as ->. { pose proof (rlen_pos d ltac:(discriminate)). assert (rsum (map (fun x => (x - c) * (x - c)) d) = 0) as Z. { unfold d. generalize (S k). induction n0; [reflexivity|]. cbn [repeat map]. unfold rsum in *. cbn [fold_right]. rewrite IHn0. ring. } rewrite Z in Hs. nra. }
    unfold Rleb. destruct (Rle_dec _ _) as [|Q]; [reflexivity|]. exfalso. apply Q. nra. }
  rewrite Sel. do 2 f_equal. apply firstn_all2. unfold d. rewrite repeat_length. lia.
Qed.
Print Assumptions C27_constant.
(** One pass about the mean rejects at most a fraction 1/sig^2 of the data. *)
Theorem C27_chebyshev : forall fuel d sig s m, sigma_clip fuel d sig (Some 1%nat) MMean var = Ok (s, m) ->
  (INR (length d) - INR (length s)) * sig^2 <= INR (length d).
Proof.
  intros fuel d sig s m. cbn [sigma_clip clipn]. unfold clip1. rewrite select_all, select_map. intros E. match type of E with Ok (?a, ?b) = _ => assert (s = a) as -> by congruence end. clear E.
  destruct d as [|x0 d0]; [cbn; lra|]. set (d := x0 :: d0). destruct (var_mean d ltac:(discriminate)) as (mu & v & Em & Ev & Hs & Hv). cbn [background]. rewrite Em, Ev. clearbody d.
  set (p := fun x => Rleb ((x - mu) * (x - mu)) (v * (sig * sig))).
  assert (forall l, (INR (length l) - INR (length (filter p l))) * (v * (sig * sig)) <= rsum (map (fun x => (x - mu) * (x - mu)) l) /\
     (v = 0 -> rsum (map (fun x => (x - mu) * (x - mu)) l) = 0 -> length (filter p l) = length l)) as K.
  { induction l as [|x l (IH1 & IH2)]; [cbn; split; [lra|auto]|]. cbn [filter map length]. unfold rsum. cbn [fold_right]. fold (rsum (map (fun x => (x - mu) * (x - mu)) l)).
    assert (0 <= rsum (map (fun x => (x - mu) * (x - mu)) l)) as P1 by (apply rsum_nonneg; intros; apply Rle_0_sqr). pose proof (Rle_0_sqr (x - mu)) as P2. unfold Rsqr in P2.
    assert (p x = true /\ (x - mu) * (x - mu) <= v * (sig * sig) \/ p x = false /\ ~ (x - mu) * (x - mu) <= v * (sig * sig)) as [(-> & Q)|(-> & Q)]
      by (unfold p, Rleb; destruct (Rle_dec ((x - mu) * (x - mu)) (v * (sig * sig))); auto); cbn [length].
    - rewrite !S_INR. split; [lra|]. intros V Z. rewrite IH2; auto. lra.
    - rewrite S_INR. split; [lra|]. intros V Z. exfalso. apply Q. rewrite V. lra. }
  destruct (K d) as (K1 & K2). fold p. rewrite <- Hs in K1, K2. unfold rlen in *. destruct (Req_dec v 0) as [V|V].
  - rewrite K2 by (auto; rewrite V; ring). pose proof (pos_INR (length d)). nra.
  - assert (0 < v) as Vp by lra. apply (Rmult_le_reg_l v); [auto|]. nra.
Qed.
Print Assumptions C27_chebyshev.

(** ** Invariance *)
(** [builtin]: the averages that can be named; they commute with affine maps and do not depend on the order. *)
Definition builtin (c : method) : Prop := In c [MMedian; MMean; M32; M2515; M21].
Lemma background_affine c a b l : builtin c -> background (map (fun x => a * x + b) l) c = option_map (fun x => a * x + b) (background l c).
Proof. intros [<-|[<-|[<-|[<-|[<-|[]]]]]]; cbn [background]; [apply median_affine|apply mean_affine|apply comb_affine; lra..]. Qed.
Lemma background_perm c l l' : builtin c -> Permutation l l' -> background l c = background l' c.
Proof. intros [<-|[<-|[<-|[<-|[<-|[]]]]]] P; cbn [background]; unfold comb; rewrite ?(median_perm _ _ P), ?(mean_perm _ _ P); reflexivity. Qed.
Lemma clip1_affine c sig a b d m : a <> 0 -> builtin c -> clip1 var c sig (map (fun x => a * x + b) d) m = clip1 var c sig d m.
Proof.
  intros Ha Hc. unfold clip1. rewrite select_fmap, background_affine, var_affine, map_map by auto. apply map_ext. intros x.
  destruct (background (select d m) c) as [k|]; [|reflexivity]. destruct (var (select d m)) as [v|]; [|reflexivity]. cbn [option_map]. unfold Rleb.
  assert (0 < a * a) by (apply Rsqr_pos_lt; auto). replace ((a * x + b - (a * k + b)) * (a * x + b - (a * k + b))) with (a * a * ((x - k) * (x - k))) by ring.
  destruct (Rle_dec _ _) as [P|P], (Rle_dec ((x - k) * (x - k)) _) as [Q|Q]; try reflexivity; exfalso; [apply Q|apply P]; [apply (Rmult_le_reg_l (a * a)); auto; lra|].
  rewrite !Rmult_assoc. rewrite <- !(Rmult_assoc a a). apply Rmult_le_compat_l; lra.
Qed.
(** Shifting and scaling (also mirroring) the data changes neither the mask nor, correspondingly, the kept data. *)
Theorem C27_affine : forall fuel d sig iters cen a b, builtin cen -> a <> 0 ->
  sigma_clip fuel (map (fun x => a * x + b) d) sig iters cen var =
  match sigma_clip fuel d sig iters cen var with Ok (s, m) => Ok (map (fun x => a * x + b) s, m) | Raise e => Raise e | OutOfFuel => OutOfFuel end.
Proof.
  intros fuel d sig iters cen a b Hc Ha. set (f := fun x => a * x + b). assert (map (fun _ : R => true) (map f d) = map (fun _ => true) d) as Hm by (rewrite map_map; reflexivity).
  unfold sigma_clip. rewrite Hm. set (m0 := map (fun _ => true) d). destruct iters as [n|].
  - assert (forall m, clipn var cen sig (map f d) n m = clipn var cen sig d n m) as ->; [|now rewrite select_fmap].
    induction n as [|n IH]; intros m; [reflexivity|]. cbn [clipn]. unfold f at 2. rewrite clip1_affine by auto. apply IH.
  - assert (forall fuel k m, clipall fuel var cen sig (map f d) k m = clipall fuel var cen sig d k m) as ->.
    { intros fu. induction fu as [|fu IH]; intros k m; [reflexivity|]. cbn [clipall]. unfold f at 2. rewrite clip1_affine by auto. rewrite IH. reflexivity. }
    destruct (clipall fuel var cen sig d (count m0 + 1) m0); [|reflexivity|reflexivity]. now rewrite select_fmap.
Qed.
Print Assumptions C27_affine.
Lemma clip_perm c sig d d' n : builtin c -> Permutation d d' -> Permutation (select d (clipn var c sig d n (map (fun _ => true) d))) (select d' (clipn var c sig d' n (map (fun _ => true) d'))).
Proof.
  intros Hc P. induction n as [|n IH]; [cbn; rewrite !select_all; auto|]. rewrite !clipn_S. unfold clip1. rewrite !select_map.
  rewrite (background_perm c _ _ Hc IH), (var_perm _ _ IH). set (p := fun x : R => _). clearbody p. clear IH. induction P; cbn; [auto| | |etransitivity; eauto].
  - destruct (p x); auto.
  - destruct (p x), (p y); auto. constructor.
Qed.
(** The order of the data does not matter: the data kept are the same. *)
Theorem C27_order : forall fuel fuel' d d' sig iters cen s m s' m', builtin cen -> Permutation d d' ->
  sigma_clip fuel d sig iters cen var = Ok (s, m) -> sigma_clip fuel' d' sig iters cen var = Ok (s', m') -> Permutation s s'.
Proof.
  intros fuel fuel' d d' sig iters cen s m s' m' Hc P E E'. destruct iters as [n|].
  - cbn in E, E'. pose proof (clip_perm cen sig d d' n Hc P). assert (s = select d (clipn var cen sig d n (map (fun _ => true) d))) as -> by congruence.
    assert (s' = select d' (clipn var cen sig d' n (map (fun _ => true) d'))) as -> by congruence. auto.
  - destruct (C27_iterate d sig cen var) as (A & _). destruct (A fuel _ E) as (n & En & C1 & C2). destruct (C27_iterate d' sig cen var) as (A' & _). destruct (A' fuel' _ E') as (n' & En' & C1' & C2').
    assert (forall k, nkept (sigma_clip 0 d sig (Some k) cen var) = nkept (sigma_clip 0 d' sig (Some k) cen var)) as Nk.
    { intros k. cbn. f_equal. apply Permutation_length. now apply clip_perm. }
    assert (n = n') as <-. { destruct (lt_eq_lt_dec n n') as [[L|L]|L]; [exfalso|auto|exfalso]; [apply (C2' n L)|apply (C2 n' L)]; rewrite ?Nk in *; congruence. }
    pose proof (clip_perm cen sig d d' (S n) Hc P) as Q. cbn in En, En', Q. assert (s = select d (clipn var cen sig d n (clip1 var cen sig d (map (fun _ => true) d)))) as -> by congruence.
    assert (s' = select d' (clipn var cen sig d' n (clip1 var cen sig d' (map (fun _ => true) d')))) as -> by congruence. auto.
Qed.
Print Assumptions C27_order.

(** ** C36: estimate_background *)
Definition within (l : list R) (c : R) : Prop := exists x y, In x l /\ In y l /\ x <= c <= y.
Lemma filter_sorted_low s c k : StronglySorted Rle s -> (k <= length s)%nat -> (forall j, (k <= j < length s)%nat -> c <= nth j s 0) -> (length (filter (fun x => Rltb x c) s) <= k)%nat.
Proof.
  intros S Hk H. rewrite <- (firstn_skipn k s), filter_app, app_length. assert (filter (fun x => Rltb x c) (skipn k s) = []) as ->.
  { destruct (filter (fun x => Rltb x c) (skipn k s)) as [|y r] eqn:E; [auto|]. assert (In y (filter (fun x => Rltb x c) (skipn k s))) as Hy by (rewrite E; left; auto). apply filter_In in Hy. destruct Hy as (Hy & Q).
    apply (In_nth _ _ 0) in Hy. destruct Hy as (j & Hj & <-). rewrite nth_skipn_plus in Q. rewrite skipn_length in Hj. unfold Rltb in Q. destruct (Rlt_dec _ _) as [L|]; [|discriminate]. specialize (H (k + j)%nat ltac:(lia)). lra. }
  cbn. rewrite Nat.add_0_r. etransitivity; [|apply (firstn_le_length k s)]. generalize (firstn k s). induction l as [|x l IH]; cbn; [lia|]. destruct (Rltb x c); cbn; lia.
Qed.
Lemma filter_sorted_high s c k : StronglySorted Rle s -> (forall j, (j < length s - k)%nat -> nth j s 0 <= c) -> (length (filter (fun x => Rltb c x) s) <= k)%nat.
Proof.
  intros S H. rewrite <- (firstn_skipn (length s - k) s), filter_app, app_length. assert (filter (fun x => Rltb c x) (firstn (length s - k) s) = []) as ->.
  { destruct (filter (fun x => Rltb c x) (firstn (length s - k) s)) as [|y r] eqn:E; [auto|]. assert (In y (filter (fun x => Rltb c x) (firstn (length s - k) s))) as Hy by (rewrite E; left; auto). apply filter_In in Hy. destruct Hy as (Hy & Q).
    apply (In_nth _ _ 0) in Hy. destruct Hy as (j & Hj & <-). rewrite firstn_length in Hj. rewrite nth_firstn_lt in Q by lia. unfold Rltb in Q. destruct (Rlt_dec _ _) as [L|]; [|discriminate]. specialize (H j ltac:(lia)). lra. }
  cbn. assert (length (skipn (length s - k) s) <= k)%nat as L by (rewrite skipn_length; lia). etransitivity; [|exact L]. generalize (skipn (length s - k) s). induction l as [|x l IH]; cbn; [lia|]. destruct (Rltb c x); cbn; lia.
Qed.
Lemma filter_perm_length (p : R -> bool) a b : Permutation a b -> length (filter p a) = length (filter p b).
Proof. induction 1; cbn; auto; [destruct (p x); cbn; auto|destruct (p x), (p y); auto|congruence]. Qed.
(** For nonempty data the named backgrounds exist, do not depend on the order of the data and follow shifts, scalings and mirrorings; median and mean lie
    within the data's range; at most half of the data are below the median, and at most half above. *)
Theorem C36_background : forall l cen, builtin cen -> l <> [] -> exists c, background l cen = Some c /\
  (forall l', Permutation l l' -> background l' cen = Some c) /\ (forall a b, background (map (fun x => a * x + b) l) cen = Some (a * c + b)) /\
  (average cen -> within l c) /\
  (cen = MMedian -> (2 * length (filter (fun x => Rltb x c) l) <= length l)%nat /\ (2 * length (filter (fun x => Rltb c x) l) <= length l)%nat).
Proof.
  intros l cen Hc Hn. assert (exists c, background l cen = Some c) as (c & Ec).
  { destruct Hc as [<-|[<-|[<-|[<-|[<-|[]]]]]]; cbn [background]; unfold comb; rewrite ?median_some, ?mean_some by auto; eauto. }
  exists c. split; [auto|]. split; [intros l' P; now rewrite <- (background_perm _ _ _ Hc P)|]. split; [intros a b; rewrite background_affine, Ec by auto; reflexivity|].
  pose proof (sort_length l) as Sl. pose proof (sort_sorted l) as Ss. assert (length l > 0)%nat as Hl by (destruct l; [congruence|cbn; lia]).
  assert (forall k, (k < length l)%nat -> In (nth k (sort l) 0) l) as HI. { intros k Hk. apply (Permutation_in _ (Permutation_sym (sort_perm l))), nth_In. lia. }
  assert (median l = Some c -> exists lo hi, (lo <= hi < length l)%nat /\ nth lo (sort l) 0 <= c <= nth hi (sort l) 0 /\ (2 * hi <= length l)%nat /\ (2 * (length l - 1 - lo) <= length l)%nat) as Med.
  { intros Em. rewrite median_some in Em by auto. match type of Em with Some ?q = _ => assert (q = c) as Eq by congruence end. clear Em. 
    destruct (Nat.odd (length l)) eqn:O; [apply odd_half in O|apply even_half in O]; set (h := (length l / 2)%nat) in *; clearbody h.
    - exists h, h. split; [lia|]. split; [lra|lia].
    - exists (h - 1)%nat, h. split; [lia|]. pose proof (ss_nth (sort l) (h - 1) h Ss ltac:(lia)). split; [lra|lia]. }
  split.
  - intros [-> | ->].
    + destruct (Med Ec) as (lo & hi & H & (A & B) & _). exists (nth lo (sort l) 0), (nth hi (sort l) 0). repeat split; auto; apply HI; lia.
    + cbn in Ec. rewrite mean_some in Ec by auto. assert (rsum l / rlen l = c) as <- by congruence. pose proof (rlen_pos l Hn) as Lp.
      destruct (exists_small l (fun x => x) (rsum l / rlen l) Hn) as (x & Hx & Lx). { rewrite map_id. right. field. lra. }
      destruct (exists_small l (fun x => - x) (- (rsum l / rlen l)) Hn) as (y & Hy & Ly). { rewrite (map_ext _ (fun x => (-1) * x)) by (intros; ring). rewrite rsum_scale. right. field. lra. }
      exists x, y. repeat split; auto; lra.
  - intros ->. destruct (Med Ec) as (lo & hi & H & (A & B) & C & D). rewrite !(filter_perm_length _ _ _ (sort_perm l)). split.
    + enough (length (filter (fun x => Rltb x c) (sort l)) <= hi)%nat by lia. apply filter_sorted_low; auto; [lia|]. intros j Hj. pose proof (ss_nth (sort l) hi j Ss ltac:(lia)). lra.
    + enough (length (filter (fun x => Rltb c x) (sort l)) <= length l - 1 - lo)%nat by lia. apply filter_sorted_high; auto. intros j Hj. pose proof (ss_nth (sort l) j lo Ss ltac:(lia)). lra.
Qed.
Print Assumptions C36_background.

(** ** Examples and refutations *)
Definition dd : list R := [0; 0; 1; 4; 4; 5].
Lemma insort_le x y l : x <= y -> insort x (y :: l) = x :: y :: l. Proof. intros H. cbn. destruct (Rle_dec x y); [auto|lra]. Qed.
Lemma insort_gt x y l : y < x -> insort x (y :: l) = y :: insort x l. Proof. intros H. cbn. destruct (Rle_dec x y); [lra|auto]. Qed.
Ltac dosort := unfold sort; cbn [fold_right]; repeat (first [rewrite insort_le by lra | rewrite insort_gt by lra | change (insort ?x []) with [x]]).
Lemma Rleb_t x y : x <= y -> Rleb x y = true. Proof. intros. unfold Rleb. destruct (Rle_dec x y); [auto|lra]. Qed.
Lemma Rleb_f x y : y < x -> Rleb x y = false. Proof. intros. unfold Rleb. destruct (Rle_dec x y); [lra|auto]. Qed.
Lemma dd0 : background dd MMedian = Some (5/2) /\ var dd = Some (38/9).
Proof.
  split.
  - cbn [background]. rewrite median_some by discriminate. unfold dd. dosort. cbn [length]. change (6 / 2)%nat with 3%nat. cbn [Nat.odd Nat.even negb nth Nat.sub]. apply f_equal. lra.
  - unfold var, dd, mean. f_equal. unfold rsum, rlen. cbn. lra.
Qed.
Lemma dd1 : background [1; 4; 4] MMedian = Some 4 /\ var [1; 4; 4] = Some 2.
Proof.
  split.
  - cbn [background]. rewrite median_some by discriminate. dosort. reflexivity.
  - unfold var, mean. f_equal. unfold rsum, rlen. cbn. lra.
Qed.
Example C36_ex : builtin M32 /\ [1; 4; 4] <> [] /\ background [1; 4; 4] M32 = Some 6.
Proof.
  split; [right; right; left; reflexivity|]. split; [discriminate|]. cbn [background]. unfold comb. destruct dd1 as (E & _). cbn [background] in E. rewrite E.
  rewrite mean_some by discriminate. apply f_equal. unfold rsum, rlen. cbn. lra.
Qed.
Lemma dd2 : background [4; 4; 5] MMedian = Some 4 /\ var [4; 4; 5] = Some (2/9).
Proof.
  split.
  - cbn [background]. rewrite median_some by discriminate. dosort. reflexivity.
  - unfold var, mean. f_equal. unfold rsum, rlen. cbn. lra.
Qed.
Definition mA := [false; false; true; true; true; false]. Definition mB := [false; false; false; true; true; true]. Definition mC := [false; false; false; true; true; false].
Lemma ddA : clip1 var MMedian 1 dd (map (fun _ => true) dd) = mA.
Proof. unfold clip1. rewrite select_all. destruct dd0 as (-> & ->). unfold dd, mA. cbn [map]. repeat f_equal; try (apply Rleb_t; lra); apply Rleb_f; lra. Qed.
Lemma ddB : clip1 var MMedian 1 dd mA = mB.
Proof. unfold clip1. change (select dd mA) with [1; 4; 4]. destruct dd1 as (-> & ->). unfold dd, mB. cbn [map]. repeat f_equal; try (apply Rleb_t; lra); apply Rleb_f; lra. Qed.
Lemma ddC : clip1 var MMedian 1 dd mB = mC.
Proof. unfold clip1. change (select dd mB) with [4; 4; 5]. destruct dd2 as (-> & ->). unfold dd, mC. cbn [map]. repeat f_equal; try (apply Rleb_t; lra); apply Rleb_f; lra. Qed.
(** "Until convergence" compares only how many data are kept: here iters=None returns {4,4,5}, but another pass would still reject 5. *)
Theorem C27_convergence_refuted : (exists fuel, sigma_clip fuel dd 1 None MMedian var = Ok ([4; 4; 5], mB)) /\
  forall fuel, sigma_clip fuel dd 1 (Some 2%nat) MMedian var = Ok ([4; 4; 5], mB) /\ sigma_clip fuel dd 1 (Some 3%nat) MMedian var = Ok ([4; 4], mC).
Proof.
  split.
  - exists 3%nat. unfold sigma_clip. cbn [clipall]. destruct (Nat.eqb_spec (count (map (fun _ => true) dd)) (count (map (fun _ => true) dd) + 1)); [lia|].
    rewrite ddA. change (count mA =? count (map (fun _ => true) dd))%nat with false. cbv iota. rewrite ddB. reflexivity.
  - intros fuel. unfold sigma_clip. cbn [clipn]. rewrite ddA, ddB, ddC. split; reflexivity.
Qed.
Example C27_ex : exists fuel, sigma_clip fuel dd 1 None MMedian var = Ok ([4; 4; 5], mB) /\ average MMedian /\ builtin MMedian.
Proof. destruct C27_convergence_refuted as ((f & H) & _). exists f. split; [exact H|]. split; [left; reflexivity|left; reflexivity]. Qed.
(** With a callable centre the loop of iters=None may run for ever. *)
Definition swinging (l : list R) : option R := Some (if (length l =? 2)%nat then 10 else 0).
Theorem C27_termination_refuted : forall fuel, sigma_clip fuel [0; 1; 10] 1 None (MFun swinging) (fun _ => Some 1) = OutOfFuel.
Proof.
  set (c := clip1 (fun _ => Some 1) (MFun swinging) 1 [0; 1; 10]).
  assert (c [true; true; true] = [true; true; false]) as H0 by (unfold c, clip1; cbn; repeat f_equal; try (apply Rleb_t; lra); apply Rleb_f; lra).
  assert (c [true; true; false] = [false; false; true]) as H1 by (unfold c, clip1; cbn; repeat f_equal; try (apply Rleb_t; lra); apply Rleb_f; lra).
  assert (c [false; false; true] = [true; true; false]) as H2 by (unfold c, clip1; cbn; repeat f_equal; try (apply Rleb_t; lra); apply Rleb_f; lra).
  assert (forall fuel, (forall k, k <> 2%nat -> clipall fuel (fun _ => Some 1) (MFun swinging) 1 [0; 1; 10] k [true; true; false] = OutOfFuel) /\
     clipall fuel (fun _ => Some 1) (MFun swinging) 1 [0; 1; 10] 2 [false; false; true] = OutOfFuel) as K.
  { induction fuel as [|f (IH1 & IH2)]; [split; reflexivity|]. cbn [clipall]. fold c. rewrite H1, H2. split.
    - intros k Hk. change (count [true; true; false]) with 2%nat. destruct (Nat.eqb_spec 2 k); [lia|]. exact IH2.
    - change (count [false; false; true]) with 1%nat. cbn [Nat.eqb]. apply IH1. lia. }
  intros fuel. unfold sigma_clip. cbn [map]. destruct fuel as [|fuel]; [reflexivity|]. cbn [clipall]. fold c. rewrite H0. cbn [count filter length Nat.add Nat.eqb].
  destruct (K fuel) as (K1 & _). rewrite K1; [reflexivity|discriminate].
Qed.
