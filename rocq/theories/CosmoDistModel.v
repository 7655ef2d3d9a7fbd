(** * CosmoDistModel: FRW densities and cosmological distances over the reals
    (astropysics/constants.py 158-168, 260-386; astropysics/coords/funcs.py 735-981) *)
From Coq Require Import List Reals Lra.
From Coquelicot Require Import Coquelicot.
From Verif Require Import PyBase.
Import ListNotations.
Open Scope R_scope.

(** ** constants.py 118-144 *)
Definition c_cgs : R := 29979245800.
Definition G_cgs : R := 6673 / 100000000000.
Definition Ms : R := 19891 * 10 ^ 29.
Definition pcpercm : R := 1 / (308568025 * 10 ^ 10).

(** ** constants.py 158-168 *)
Definition flambda_to_fnu_l (f l : R) : R := f * l * l / c_cgs.
Definition fnu_to_flambda_l (f l : R) : R := f * c_cgs / l / l.
Definition flambda_to_fnu_n (f n : R) : R := f * c_cgs / n / n.
Definition fnu_to_flambda_n (f n : R) : R := f * n * n / c_cgs.

(** ** FRWCosmology, constants.py 260-386: the attributes *)
Record frw := FRW { Hub : R; omegaR : R; omegaM : R; omegaL : R }.
Section FRW.
  Variable w : frw.
  Definition omega : R := omegaR w + omegaM w + omegaL w.
  Definition omegaK : R := 1 - omegaR w - omegaM w - omegaL w.
  (** [x**0.5] with the base not negative *)
  Definition Hz (z : R) : R :=
    let a := 1 / (1 + z) in Hub w * sqrt (omegaR w * / a ^ 4 + omegaM w * / a ^ 3 + omegaL w + (1 - omegaM w - omegaL w - omegaR w) * / a ^ 2).
  Inductive units := Cgs | Cosmological | OtherUnits.
  Definition rhoC (z : R) (u : units) : @res R :=
    let H := Hz z * 10 ^ 5 * / 10 ^ 6 * pcpercm in let cgsres := 3 * H * H / (8 * PI * G_cgs) in
    match u with Cgs => Ok cgsres | Cosmological => Ok (cgsres / Ms * / (/ 10 ^ 6 * pcpercm) ^ 3) | OtherUnits => Raise ValueError end.
  Definition rhoC_cgs (z : R) : R := match rhoC z Cgs with Ok r => r | _ => 0 end.
  Definition rho (z : R) (u : units) : @res R := match rhoC z u with Ok r => Ok (omega * r) | Raise e => Raise e | OutOfFuel => OutOfFuel end.
  Definition omegaRz (z : R) : R := let a := 1 / (1 + z) in rhoC_cgs 0 / rhoC_cgs z * omegaR w * / a ^ 4.
  Definition omegaMz (z : R) : R := let a := 1 / (1 + z) in rhoC_cgs 0 / rhoC_cgs z * omegaM w * / a ^ 3.
  Definition omegaLz (z : R) : R := omegaL w * (rhoC_cgs 0 / rhoC_cgs z).
  Definition omegaKz (z : R) : R := let a := 1 / (1 + z) in rhoC_cgs 0 / rhoC_cgs z * omegaK * / a ^ 2.
  Definition deltavir (z : R) : @res R :=
    let x := omegaMz z - 1 in
    if Req_EM_T omegaK 0 then Ok (18 * PI ^ 2 + 82 * x - 39 * x ^ 2)
    else if Req_EM_T (omegaL w) 0 then Ok (18 * PI ^ 2 + 60 * x - 32 * x ^ 2) else Raise NotImplementedError.
  (** cosmo_z_to_H, funcs.py 957-981 *)
  Definition cosmo_z_to_H (z zerr : R) : R * R * R := (Hz z, Hz (z + zerr) - Hz z, Hz (z - zerr) - Hz z).

  (** ** cosmo_z_to_dist, funcs.py 735-920.  scipy's quad is the exact integral (its error estimate 0, so the tolerance test passes);
      scalars only. *)
  Definition ckm : R := c_cgs / 10 ^ 5.
  Definition H2a4 (a : R) : R := omegaR w + omegaM w * a + omegaL w * a ^ 4 + (1 - omegaM w - omegaL w - omegaR w) * a ^ 2.
  Definition integrand (a : R) : R := / sqrt (H2a4 a) / Hub w.
  Definition integrand_t (a : R) : R := a * / sqrt (H2a4 a) / Hub w.
  Definition log10 (x : R) : R := ln x / ln 10.
  (** phot.distance_modulus(d, autocosmo=False): phot.py 3125, 3131 *)
  Definition distmod_pc (d : R) : R := 5 * log10 d - 5.
  (** 873-889: with K<0, angfactor is real; with K>0 it is i*H0*sqrt K and sin(ix)/i = sinh x *)
  Definition angular (a0 intres : R) : R :=
    let K := 1 - omegaM w - omegaL w - omegaR w in
    if Req_EM_T K 0 then ckm * intres * a0
    else if Rlt_dec K 0 then let f := Hub w * sqrt (- K) in ckm * (sin (f * intres) / f) * a0
    else let f := Hub w * sqrt K in ckm * (sinh (f * intres) / f) * a0.
  (** disttype after the string table and abs: 0 comoving, 1 luminosity, 2 angular, 3 lookback, 4 distmod *)
  Definition zdist (disttype : nat) (z : R) : @res R :=
    let a0 := 1 / (z + 1) in
    match disttype with
    | 0%nat => Ok (ckm * RInt integrand a0 1)
    | 1%nat => Ok (ckm * RInt integrand a0 1 / a0)
    | 2%nat => Ok (angular a0 (RInt integrand a0 1))
    | 3%nat => Ok (ckm * RInt integrand_t a0 1 * (326163626 / 10 ^ 11))
    | 4%nat => Ok (distmod_pc (ckm * RInt integrand a0 1 / a0 * 10 ^ 6))
    | _ => Raise KeyError
    end.
  Definition bindr {A B} (r : @res A) (f : A -> @res B) : @res B := match r with Ok a => f a | Raise e => Raise e | OutOfFuel => OutOfFuel end.
  (** 903-920: normalisation by the distance at redshift [nz] (normed a number), sign flip for a negative disttype, errors.
      [kw]: intkwargs is not empty; it is passed on in the place of normed, which makes the inner call fail (array(dict)+1) *)
  Definition zdist_full (flip : bool) (disttype : nat) (normed : option R) (kw : bool) (zerr : option R) (z : R) : @res (R * option (R * R)) :=
    bindr (zdist disttype z) (fun d =>
    bindr (match normed with None => Ok 1 | Some nz => if kw then Raise TypeError else bindr (zdist disttype nz) (fun x => Ok (1 / x)) end) (fun nrm =>
    let nrm := if flip then nrm * -1 else nrm in
    match zerr with
    | None => Ok (nrm * d, None)
    | Some e => if kw then Raise TypeError else
        bindr (zdist disttype (z + e)) (fun up => bindr (zdist disttype (z - e)) (fun lo => Ok (nrm * d, Some (nrm * (up - d), nrm * (d - lo)))))
    end)).

  (** 831-844: z=None for types other than angular; [n] bounds the number of iterations *)
  Fixpoint zmax_loop (n : nat) (dist : R -> R) (tol iterz lastval currval : R) : option R :=
    match n with
    | O => None
    | S n => if Rlt_dec tol (Rabs (lastval - currval)) then zmax_loop n dist tol (iterz * 10) currval (dist (iterz * 10)) else Some currval
    end.
  Definition zmax (n : nat) (dist : R -> R) (tol : R) : option R := zmax_loop n dist tol (10 ^ 6) (dist (10 ^ 6) + 2 * tol) (dist (10 ^ 6)).

  (** cosmo_dist_to_z, funcs.py 922-954: maxz runs through 1e4, 1e8, ..., 1e256; the next square overflows.  brenth(f,0,maxz) is a parameter. *)
  Definition maxzs : list R := map (fun k : nat => 10 ^ (4 * 2 ^ k)%nat) (seq 0 7).
  Fixpoint find_max (dist : R -> R) (d : R) (l : list R) : option R :=
    match l with [] => None | m :: r => if Rlt_dec 0 (d - dist m) then find_max dist d r else Some m end.
  Definition dist_to_z (brenth : (R -> R) -> R -> R -> @res R) (dist : R -> R) (d : R) : @res R :=
    match find_max dist d maxzs with None => Raise ValueError | Some m => brenth (fun z => d - dist z) 0 m end.
End FRW.
