(** * SpecExamples: concrete cases that meet the hypotheses of C49-C56 *)
From Coq Require Import List Bool Reals Lra Lia ZArith String Sorted.
From Verif Require Import PyBase CosmoDistModel PhotModel SpecModel SpecProps SpecObj SpecLineModel SpecResample SpecLines.
Import ListNotations.
Open Scope R_scope.

Definition ex_spec : spectrum := Spec [4000; 5000; 6000] [1; 2; 3] [1/10; 1/10; 1/10] UAng (Some (CArr [1; 1; 2])) None (1/10).
Example ex_good : good ex_spec /\ scontop ex_spec = None /\ nonzero_cont ex_spec.
Proof. unfold good, cont_fits, nonzero_cont. cbn [ex_spec sx sflux serr scont scontop]. repeat split; repeat constructor; lra. Qed.
Example ex_names : selected UAng ["Hz"; "bogus"; "EN"; "wavelength-nm"]%string = UNm. Proof. reflexivity. Qed.
(** 5000 angstrom is 500 nm, and a flux density of 2 per angstrom is 20 per nm *)
Example ex_conversion : forall c h e, 0 < c -> 0 < h -> 0 < e -> xftrans c h e UAng UNm (5000, 2) = (500, 20).
Proof. intros. unfold xftrans. cbn [ptype conv fst snd scale]. f_equal; field. Qed.
Example ex_history : forall c h e, 0 < c -> 0 < h -> 0 < e -> nth 1 (sx (run c h e ["Hz"; "bogus"; "EN"; "wavelength-nm"]%string ex_spec)) 0 = 500.
Proof.
  intros c h e Hc Hh He. destruct ex_good as (G & O & _). destruct (C50_history c h e Hc Hh He ["Hz"; "bogus"; "EN"; "wavelength-nm"]%string ex_spec G O I) as (_ & _ & _ & _ & X & _). rewrite X by (cbn; lia).
  change (xtrans c h e UAng UNm 5000 = 500). unfold xtrans. cbn [ptype conv fst scale]. field.
Qed.
Example ex_opposite : opposite UAng UHz /\ opposite UeV UNm /\ ~ opposite UAng UNm. Proof. unfold opposite. cbn. repeat split; try (left; split; congruence); try (right; split; congruence). intros [H|H]; destruct H; congruence. Qed.
Example ex_fine : List.Forall fine [FUnit "hz"; FX [1; 2]; FUnit "ang"; FUnit "hz"; FX [3]]. Proof. repeat constructor; lra. Qed.
Example ex_pixels : pixels ex_spec /\ (2 <= List.length (sx ex_spec))%nat. Proof. unfold pixels. cbn [ex_spec sx sflux serr List.length]. repeat split; try discriminate; try lia. repeat constructor; lra. Qed.
Example ex_interp : interpolates [4000; 5000; 6000] [1; 2; 3] 4500 (3/2).
Proof. unfold interpolates. cbn [List.length nth Nat.sub]. split; [lra|]. split; [lra|]. intros [|[|i]] Hi Hq; cbn [nth] in *; try lra. lia. Qed.
Example ex_lag : lag_to_z true [1; 2; 4; 8] 1 = [Some 1; Some 1; Some 1; Some 1].
Proof.
  rewrite (C54_logarithmic [1; 2; 4; 8] 1 2 1); try lra.
  - cbn [List.length repeat]. replace (powerRZ 2 1 - 1) with 1 by (change (powerRZ 2 1) with (2 ^ 1); lra). reflexivity.
  - intros i Hi. cbn [List.length] in Hi. rewrite <- pow_powerRZ. destruct i as [|[|[|[|i]]]]; [| | | |lia]; cbn [nth]; lra.
  - discriminate.
  - reflexivity.
Qed.
Example ex_lines : close_pair (1/10) [Known 5007 "a"; Known 4959 "b"; Known (50071/10) "c"] /\ ~ close_pair 0 [Known 5007 "a"; Known 4959 "b"].
Proof.
  split.
  - exists 0%nat, 2%nat. cbn [List.length nth kloc]. split; [lia|]. unfold Rabs. destruct (Rcase_abs _); lra.
  - intros (i & j & Hij & D). cbn [List.length] in Hij. assert (i = 0 /\ j = 1)%nat as (-> & ->) by lia. cbn [nth kloc] in D. unfold Rabs in D. destruct (Rcase_abs _); lra.
Qed.
Example ex_feature : positive (newFeature (4990, 5020) UAng). Proof. unfold positive, getCenter. cbn [newFeature frest fcenter fextent fst snd]. lra. Qed.
Example ex_flux : line_flux [1; 2; 3; 4; 5] [0; 3; 5; 3; 0] (Some [0; 1; 1; 1; 0]) (15/10, 45/10) = Ok 8.
Proof.
  assert (StronglySorted Rlt [1; 2; 3; 4; 5]) as S by (repeat constructor; lra).
  destruct (C56_line_flux [1; 2; 3; 4; 5] [0; 3; 5; 3; 0] (Some [0; 1; 1; 1; 0]) (15/10) (45/10)) as (i & j & Hij & Hk & F); auto; try (cbn [List.length nth Nat.sub]; try lia).
  - intros l [= <-]. reflexivity.
  - rewrite Rmin_left; lra.
  - rewrite Rmax_right; lra.
  - cbn [List.length] in *. rewrite Rmin_left, Rmax_right in Hk by lra. assert (i = 1)%nat as ->. { pose proof (Hk 1%nat ltac:(lia)) as K1. pose proof (Hk 0%nat ltac:(lia)) as K0. cbn [nth] in *. assert (i <= 1)%nat by (apply K1; lra). destruct i; [|lia]. assert (j > 0)%nat by (destruct K1 as (_ & K1); specialize (K1 ltac:(lra)); lia). assert (0 <= 0 < j)%nat as Q by lia. apply K0 in Q. lra. }
    assert (j = 4)%nat as ->. { pose proof (Hk 3%nat ltac:(lia)) as K3. pose proof (Hk 4%nat ltac:(lia)) as K4. cbn [nth] in *. assert (3 < j)%nat by (apply K3; lra). lia. }
    rewrite F by lia. f_equal. unfold total, width, edge. cbn [Nat.sub seq map fold_right Nat.add nth]. lra.
Qed.
