(** * GhModel: GaussHermiteModel of astropysics/models.py 396-456

    Over the reals.  scipy.special.hermite(n) is represented by the physicists' Hermite polynomial, scipy.integrate.quad by the (improper) Riemann integral. *)
From Coq Require Import List Bool Reals Lra ZArith.
From Coquelicot Require Import Coquelicot.
From Verif Require Import PyBase.
Import ListNotations.
Open Scope R_scope.

(** scipy.special.hermite: H_0 = 1, H_1 = 2x, H_(n+1) = 2x H_n - 2n H_(n-1) *)
Fixpoint herm (n : nat) (x : R) : R := match n with O => 1 | S m => match m with O => 2 * x | S k => 2 * x * herm m x - 2 * INR m * herm k x end end.

(** the parameters A, v0, sig, *hj3 (397-407) and the polynomials of _Hpolys (415) *)
Record ghmodel := GH { amp : R; v0 : R; sig : R; hj3 : list R; cached : option (list (R -> R)) }.

(** _Hjs 416-424, the part that fills _Hpolys *)
Definition fill (c : option (list (R -> R))) (N : nat) : list (R -> R) :=
  match c with Some p => if Nat.eqb N (List.length p) then p else map herm (seq 0 N) | None => map herm (seq 0 N) end.
(** 426-431 for one point with exclude=(0,1,2): the polynomials after the third *)
Definition Hjs (p : list (R -> R)) (w : R) : list R := map (fun H => H w) (skipn 3 p).
Definition dot (h H : list R) : R := fold_right Rplus 0 (map (fun p => fst p * snd p) (combine h H)).
Definition alpha (w : R) : R := exp (- (w ^ 2) / 2) * / sqrt (2 * PI).

(** f 406-411: the points of an array, with the new _Hpolys.  Without h the sum has no rows and one column less: shape (0,), which an array of more than one point is not compatible with *)
Definition gh_point (p : list (R -> R)) (A v0 sig : R) (hs : list R) (v : R) : R := let w := (v - v0) / sig in A * alpha w / sig * (1 + dot hs (Hjs p w)).
Definition gh_f (c : option (list (R -> R))) (A v0 sig : R) (hs : list R) (vs : list R) : list (R -> R) * @res (list R) :=
  let p := fill c (List.length hs + 3) in
  (p, match hs with [] => if Nat.ltb 1 (List.length vs) then Raise ValueError else Ok [] | _ => Ok (map (gh_point p A v0 sig hs) vs) end).

(** scipy.integrate.quad(f,lower,upper)[0] *)
Definition edge (b : Rbar) : (R -> Prop) -> Prop := match b with Finite x => at_point x | _ => Rbar_locally b end.
Definition quad (f : R -> R) (lower upper : Rbar) : R := RInt_gen f (edge lower) (edge upper).

(** gaussHermiteMoment 437-456 (l an integer): the function given, or the object itself called for one point (whose result has no value to return without h), and the polynomials left in _Hpolys *)
Definition moment (m : ghmodel) (f : option (R -> R)) (l : Z) (lower upper : Rbar) : list (R -> R) * @res R :=
  let p := fill (cached m) (List.length (hj3 m) + 3) in
  (p, match py_get p l with
      | None => Raise IndexError
      | Some H =>
          let intnorm := quad (fun x => H x * H x * exp (- (x * x))) lower upper / (2 * PI) in
          let jac := fun v => let w := (v - v0 m) / sig m in alpha w * H w in
          match f with
          | Some f => Ok (quad (fun x => f x * jac x) lower upper / amp m / intnorm)
          | None => match hj3 m with
                    | [] => Raise ValueError
                    | _ => Ok (quad (fun x => gh_point p (amp m) (v0 m) (sig m) (hj3 m) x * jac x) lower upper / amp m / intnorm)
                    end
          end
      end).
(** rangehint 433-435 *)
Definition gh_range (m : ghmodel) : R * R := (v0 m - sig m * 4, v0 m + sig m * 4).
