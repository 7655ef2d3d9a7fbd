(** * NoiseModel: spectra made from a model, with noise, astropysics/spec.py 1322-1340, 1372-1478

    Over the reals; the unit is not changed (FunctionSpectrum and its units are C51).  The model is evaluated at each x by itself and gives a new array.  A noise function gives an array or raises; what the random number generator returns is an argument ([smp]) of every operation that may draw.  v ** -0.5 is 1 / sqrt v, so v is meant to be positive there; an array divided by zero is not modelled either. *)
From Coq Require Import List Bool Reals String Ascii Arith.
From Verif Require Import PyBase PubModel IoModel SpecModel FeatModel.
Import ListNotations.
Open Scope R_scope.

Inductive ntype := Poisson | Normal.
Definition nfunc := list R -> list R -> @res (list R).
(** _x, _flux, _err, _noisefunc, _noisetype, and the kinds of the closures _errf and _noise *)
Record mspec := MS { mx : list R; mflux : list R; merr : list R; nfun : option nfunc; ntyp : option ntype; nerrf : option ntype; nnoise : option ntype }.
Section Model.
Variable g : R -> R.
(** ModelSpectrum.__init__ 1376-1391 without noise; FunctionSpectrum.__init__ 1310-1322 *)
Definition new_plain (x : list R) : mspec := MS x (map g x) (map (fun _ => 0) x) None None None None.
(** the numbers np.random.normal and poisson are asked for: as many as x has, with one scale for each or for all, none negative *)
Definition can_draw (n : nat) (v : list R) : bool := (Nat.eqb (List.length v) n || Nat.eqb (List.length v) 1) && forallb (fun u => if Rlt_dec u 0 then false else true) v.
(** the closures newerrf and newnoise 1448-1460; [old] is the flux before *)
Definition err_of (k : ntype) (f : option nfunc) (x old : list R) : @res (list R) :=
  match f with
  | None => Raise TypeError
  | Some f => match f x old with
      | Ok v => match k with Normal => Ok v | Poisson => bcast Rmult old (map (fun u => / sqrt u) v) end
      | Raise e => Raise e
      | OutOfFuel => OutOfFuel
      end
  end.
(** [isarr]: x is an array, which has a size *)
Definition inplace (op : R -> R -> R) (a b : list R) : @res (list R) := match bcast op a b with Ok c => if Nat.eqb (List.length c) (List.length a) then Ok c else Raise ValueError | r => r end.
Definition add_noise (k : ntype) (f : option nfunc) (isarr : bool) (x flux smp : list R) : @res (list R) :=
  match f with
  | None => Raise TypeError
  | Some f => match f x flux with
      | Raise e => Raise e
      | OutOfFuel => OutOfFuel
      | Ok v => if negb isarr then Raise AttributeError else if negb (can_draw (List.length x) v) then Raise ValueError else
                match k with
                | Normal => inplace Rplus flux smp
                | Poisson => match bcast Rdiv smp v with Ok q => inplace Rmult flux q | r => r end
                end
      end
  end.
(** FunctionSpectrum._setX 1324-1340 and ModelSpectrum._setX 1393-1396: x comes first, whatever fails later *)
Definition setx (s : mspec) (isarr : bool) (x smp : list R) : mspec * @res unit :=
  let s1 := MS x (mflux s) (merr s) (nfun s) (ntyp s) (nerrf s) (nnoise s) in
  match (match nerrf s with None => Ok (map (fun _ => 0) x) | Some k => err_of k (nfun s) x (mflux s) end) with
  | Raise e => (s1, Raise e)
  | OutOfFuel => (s1, OutOfFuel)
  | Ok er =>
      let s2 := MS x (map g x) er (nfun s) (ntyp s) (nerrf s) (nnoise s) in
      match nnoise s with
      | None => (s2, Ok tt)
      | Some k => match add_noise k (nfun s) isarr x (map g x) smp with
          | Raise e => (s2, Raise e)
          | OutOfFuel => (s2, OutOfFuel)
          | Ok fl => (MS x fl er (nfun s) (ntyp s) (nerrf s) (nnoise s), Ok tt)
          end
      end
  end.
(** _setNoisefunc 1416-1436 *)
Inductive nfarg := NoFunc | Scalar (r : R) | Func (f : nfunc) | NotFunc.
Definition with_fun (s : mspec) (f : option nfunc) : mspec := MS (mx s) (mflux s) (merr s) f (ntyp s) (nerrf s) (nnoise s).
Definition set_fun (s : mspec) (f : nfunc) (smp : list R) : mspec * @res unit :=
  let s1 := with_fun s (Some f) in
  match ntyp s with
  | None => (s1, Ok tt)
  | Some _ => let '(s2, r) := setx s1 true (mx s) smp in match r with Ok _ => (s2, Ok tt) | _ => (with_fun s2 (nfun s), r) end
  end.
Definition set_noisefunc (s : mspec) (a : nfarg) (smp : list R) : mspec * @res unit :=
  match a with
  | NoFunc => (with_fun s None, Ok tt)
  | NotFunc => (s, Raise ValueError)
  | Scalar r => set_fun s (fun x _ => Ok (map (fun _ => r) x)) smp
  | Func f => set_fun s f smp
  end.
(** _setNoisetype 1441-1477 *)
Definition with_kind (s : mspec) (t e n : option ntype) : mspec := MS (mx s) (mflux s) (merr s) (nfun s) t e n.
Definition set_noisetype (s : mspec) (v : option str) (smp : list R) : mspec * @res unit :=
  match v with
  | None => (with_kind s None None None, Ok tt)
  | Some w =>
      match nfun s with
      | None => (s, Raise ValueError)
      | Some _ =>
          match (if str_eqb w (L "poisson") then Some Poisson else match find (L "gauss") w with Some _ => Some Normal | None => if str_eqb w (L "normal") then Some Normal else None end) with
          | None => (s, Raise ValueError)
          | Some k => let '(s2, r) := setx (with_kind s (Some k) (Some k) (Some k)) true (mx s) smp in match r with Ok _ => (s2, Ok tt) | _ => (with_kind s2 (ntyp s) (nerrf s) (nnoise s), r) end
          end
      end
  end.
(** __init__: the setter of noisefunc looks for the attribute it is going to set *)
Definition new_mspec (x : list R) (f : nfarg) (t : option str) (smp : list R) : @res mspec :=
  match f with
  | NotFunc => Raise ValueError
  | Scalar _ | Func _ => Raise AttributeError
  | NoFunc => match set_noisetype (new_plain x) t smp with (s, Ok _) => Ok s | (_, Raise e) => Raise e | (_, OutOfFuel) => OutOfFuel end
  end.
Inductive nop := SetX (isarr : bool) (x smp : list R) | SetFun (a : nfarg) (smp : list R) | SetType (v : option str) (smp : list R).
Definition nstep (s : mspec) (o : nop) : mspec * @res unit := match o with SetX b x smp => setx s b x smp | SetFun a smp => set_noisefunc s a smp | SetType v smp => set_noisetype s v smp end.
Definition nhistory (x : list R) (ops : list nop) : mspec := fold_left (fun s o => fst (nstep s o)) ops (new_plain x).
End Model.
