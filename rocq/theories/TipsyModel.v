(** * TipsyModel: load_tipsy_format, utils/io.py 925-1012.  The three header lines come as numbers, the rest of the file as the list of its numbers, one
    per line (numpy.loadtxt); numbers are of any type.  Headers with ngas + nstar > ntotal (a negative ndark) are not modelled. *)
From Coq Require Import List Bool Arith.
From Verif Require Import PyBase.
Import ListNotations.

Section Tipsy.
Context {A : Type}.
(** l[i:j] for i, j >= 0 *)
Definition slice (i j : nat) (l : list A) : list A := firstn (j - i) (skipn i l).
(** the dictionary returned; the entries made under a condition are options *)
Record parts := Parts { whole : list A; of_gas : list A; of_dark : list A; of_star : list A }.
Record vparts := VParts { vwhole : list (list A); vof_gas : list (list A); vof_dark : list (list A); vof_star : list (list A) }.
Record tipsy := Tipsy { n_total : nat; n_dark : nat; n_star : nat; n_gas : nat; t_dims : nat;
  mass : parts; pos : vparts; vel : vparts;
  softening_dark : option (list A); softening_star : option (list A);
  density : option (list A); temperature : option (list A); sph_smoothing : option (list A); metals_gas : option (list A);
  metals_star : option (list A); formation_time : option (list A); potential_en : parts; warned : bool }.
(** 945-948, 1003-1006: the dark part is [ngas:ndark] *)
Definition split_parts (ngas ndark : nat) (l : list A) : parts := Parts l (firstn ngas l) (slice ngas ndark l) (skipn (ngas + ndark) l).
(** 950-954, 961-965 *)
Fixpoint blocks (d j n : nat) (l : list A) : list (list A) := match d with O => [] | S d => slice j (j + n) l :: blocks d (j + n) n l end.
(** 956-959: column slices of numpy.array(pos) need a rectangular array of two dimensions *)
Definition rectangular (v : list (list A)) : bool := match v with [] => false | r :: t => forallb (fun q => Nat.eqb (length q) (length r)) t end.
Definition split_vectors (ngas ndark : nat) (v : list (list A)) : @res vparts :=
  if rectangular v then Ok (VParts v (map (firstn ngas) v) (map (slice ngas ndark) v) (map (skipn (ngas + ndark)) v)) else Raise IndexError.
(** i = j; j += n; A[i:j] *)
Definition next (j n : nat) (l : list A) : list A * nat := (slice j (j + n) l, j + n).
Definition load (ntotal ngas nstar dims : nat) (l : list A) : @res tipsy :=
  let ndark := ntotal - nstar - ngas in
  match l with
  | [_] => Raise IndexError
  | _ =>
    let m := slice 0 ntotal l in
    let j := ntotal in
    match split_vectors ngas ndark (blocks dims j ntotal l) with
    | Ok p =>
      let j := j + dims * ntotal in
      match split_vectors ngas ndark (blocks dims j ntotal l) with
      | Ok v =>
        let j := j + dims * ntotal in
        let '(sd, j) := if 0 <? ndark then let '(x, j) := next j ndark l in (Some x, j) else (None, j) in
        let '(ss, j) := if 0 <? nstar then let '(x, j) := next j nstar l in (Some x, j) else (None, j) in
        let '(de, te, sp, mg, j) := if 0 <? ngas then
            let '(a, j) := next j ngas l in let '(b, j) := next j ngas l in let '(c, j) := next j ngas l in let '(d, j) := next j ngas l in (Some a, Some b, Some c, Some d, j)
          else (None, None, None, None, j) in
        let '(ms, ft, j) := if 0 <? nstar then let '(a, j) := next j nstar l in let '(b, j) := next j nstar l in (Some a, Some b, j) else (None, None, j) in
        let '(pe, j) := next j ntotal l in
        Ok (Tipsy ntotal ndark nstar ngas dims (split_parts ngas ndark m) p v sd ss de te sp mg ms ft (split_parts ngas ndark pe) (negb (Nat.eqb j (length l))))
      | Raise e => Raise e | OutOfFuel => OutOfFuel
      end
    | Raise e => Raise e | OutOfFuel => OutOfFuel
    end
  end.
End Tipsy.
