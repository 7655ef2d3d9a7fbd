(** * TabLog: logarithmic columns of a table, objcat.py 3889-3897 (C104) *)
From Coq Require Import Reals Lra.
Open Scope R_scope.
Definition log10 (x : R) : R := ln x / ln 10.
(** 3889-3894: the value, its upper and its lower error *)
Definition logged (x u l : R) : R * R * R := let y := log10 x in (y, log10 (x + u) - y, log10 (x - l) + y).
(** ** Specification: the numbers that are read off a logarithmic axis *)
Definition value10 (y : R) : R := Rpower 10 y.
Lemma pow_log x : 0 < x -> value10 (log10 x) = x.
Proof.
  intros H. unfold value10, log10, Rpower. assert (0 < ln 10) by (rewrite <- ln_1; apply ln_increasing; lra). replace (ln x / ln 10 * ln 10) with (ln x) by (field; lra). now apply exp_ln.
Qed.
Theorem log_value x u l : 0 < x -> value10 (fst (fst (logged x u l))) = x.
Proof. intros H. cbn [logged fst]. now apply pow_log. Qed.
Theorem log_upper x u l : 0 < x -> 0 < x + u -> let '(y, up, _) := logged x u l in value10 (y + up) = x + u.
Proof. intros H H2. cbn [logged]. replace (log10 x + (log10 (x + u) - log10 x)) with (log10 (x + u)) by ring. now apply pow_log. Qed.
(** Refuted: the lower end is x - l.  It is the inverse of x - l, so it is right only if x - l = 1. *)
Theorem log_lower_refuted x u l : 0 < x -> 0 < x - l -> let '(y, _, low) := logged x u l in value10 (y - low) = / (x - l) /\ (value10 (y - low) = x - l <-> x - l = 1).
Proof.
  intros H H2. cbn [logged]. replace (log10 x - (log10 (x - l) + log10 x)) with (- log10 (x - l)) by ring.
  assert (value10 (- log10 (x - l)) = / (x - l)) as E. { unfold value10. rewrite Rpower_Ropp. f_equal. now apply pow_log. }
  split; [exact E|]. rewrite E. split; [|intros ->; lra]. intros E2. assert ((x - l) * (x - l) = 1) as E3 by (rewrite <- E2 at 1; field; lra). nra.
Qed.
Example log_hyp : 0 < 100 /\ 0 < 100 + 20 /\ 0 < 100 - 90.
Proof. lra. Qed.
