(** * CcdModel: images held in memory (astropysics/ccd.py: CCDImage 192-530, 740-806, DataScaling and its
    subclasses 807-965, ArrayImage 1193-1228).
    Pixels are real numbers.  Not modelled: NaN and infinity in the data (storing one is the outcome
    [NotANumber], after which nothing is claimed), the 'mask' action (which hides pixels without changing them),
    integer data types, numpy broadcasting of a stage result of a different shape, plotting. *)
From Coq Require Import Reals ZArith List Bool Arith Lia Lra.
From Verif Require Import PyBase AlgModel.
Import ListNotations.
Open Scope R_scope.

(** ** Two-dimensional arrays: [px i j] is [data[i,j]], meaningful below the shape *)
Record arr := Arr { nx : nat; ny : nat; px : nat -> nat -> R }.
Definition amap (f : R -> R) (a : arr) : arr := Arr (nx a) (ny a) (fun i j => f (px a i j)).
(** numpy ravel *)
Definition ravel (a : arr) : list R :=
  flat_map (fun i => map (fun j => px a i j) (seq 0 (ny a))) (seq 0 (nx a)).
(** Python slice bounds against a length *)
Definition bound (n : nat) (z : Z) : nat :=
  if (z <? 0)%Z then Z.to_nat (z + Z.of_nat n) else Nat.min (Z.to_nat z) n.
Definition box := (Z * Z * Z * Z)%type.
(** [a[xl:xu,yl:yu]]: first index and length along an axis *)
Definition low (n : nat) (l : Z) : nat := bound n l.
Definition len (n : nat) (l u : Z) : nat := (bound n u - bound n l)%nat.
Definition sub (a : arr) (b : box) : arr :=
  let '(xl,xu,yl,yu) := b in
  Arr (len (nx a) xl xu) (len (ny a) yl yu) (fun i j => px a (low (nx a) xl + i) (low (ny a) yl + j)).
Definition within (lo n i : nat) : bool := (lo <=? i)%nat && (i <? lo + n)%nat.
(** [a[xl:xu,yl:yu] = d], [d] of the shape of the slice *)
Definition put (a : arr) (b : box) (d : arr) : arr :=
  let '(xl,xu,yl,yu) := b in
  Arr (nx a) (ny a)
      (fun i j => if within (low (nx a) xl) (len (nx a) xl xu) i && within (low (ny a) yl) (len (ny a) yl yu) j
                  then px d (i - low (nx a) xl) (j - low (ny a) yl) else px a i j).

(** ** Scalings 807-965 *)
Inductive scaling :=
| Linear | Power                     (* 842-850, 904-913: both return the array itself *)
| Exp | Asinh                        (* 889-902 *)
| Log (mn mx lo up : R)              (* 852-887, base None; [mn], [mx] are read when the object is made *)
| LogBase (b : R)                    (* 852-887, base given *)
| SB (offset : R).                   (* 915-934 *)
Definition log10 (x : R) : R := ln x / ln 10.
(** transform; None: the call raises (872: [self._base] does not exist) *)
Definition fwd (s : scaling) : option (R -> R) :=
  match s with
  | Linear | Power => Some (fun x => x)
  | Exp => Some exp
  | Asinh => Some arcsinh
  | Log mn mx lo up => Some (fun x => ln ((exp 1 - 1) * (x - mn) / mx + 1) * (up - lo) + lo)
  | LogBase _ => None
  | SB o => Some (fun x => o - 5/2 * log10 x)
  end.
(** invtransform; None: the call raises (881: [self.lower()] calls a number) *)
Definition inv (s : scaling) : option (R -> R) :=
  match s with
  | Linear | Power => Some (fun x => x)
  | Exp => Some ln
  | Asinh => Some sinh
  | Log _ _ _ _ => None
  | LogBase b => Some (Rpower b)
  | SB o => Some (fun y => Rpower 10 ((y - o) / - (5/2)))
  end.
(** the result of transform is the very array it was given *)
Definition shares (s : scaling) : bool := match s with Linear | Power => true | _ => false end.
Definition is_linear (s : scaling) : bool := match s with Linear => true | _ => false end.

(** ** The image object *)
Record stats := Stats { s_median : R; s_mean : R; s_std : R; s_min : R; s_max : R }.
(** the cache [_fstatd]: a dictionary, or None once setScaling has run (349) *)
Inductive cache := CNone | CEmpty | CFull (s : stats).
Record image := Image {
  store : arr;                  (* _array *)
  region : option box;          (* _rng *)
  view : option (option box);   (* _active is a view of this region of _array *)
  own : arr;                    (* _active when it is a separate array (view None) *)
  scal : scaling;               (* _scaling, _scalefunc, _invscalefunc *)
  changed : bool;               (* _changed *)
  fstat : cache;                (* _fstatd *)
  lstat : option stats;         (* _lstatd *)
  auto : bool;                  (* applyChangesOnActivate *)
  zpt : option R;               (* zeropoint *)
  pixscale : option (R * R)     (* pixelscale *)
}.
Definition with_store (m : image) v := Image v (region m) (view m) (own m) (scal m) (changed m) (fstat m) (lstat m) (auto m) (zpt m) (pixscale m).
Definition with_active (m : image) r s o := Image (store m) r s o (scal m) (changed m) (fstat m) (lstat m) (auto m) (zpt m) (pixscale m).
Definition with_scal (m : image) v := Image (store m) (region m) (view m) (own m) v (changed m) CNone (lstat m) (auto m) (zpt m) (pixscale m).
Definition with_changed (m : image) v := Image (store m) (region m) (view m) (own m) (scal m) v (fstat m) (lstat m) (auto m) (zpt m) (pixscale m).
Definition with_fstat (m : image) v := Image (store m) (region m) (view m) (own m) (scal m) (changed m) v (lstat m) (auto m) (zpt m) (pixscale m).
Definition with_lstat (m : image) v := Image (store m) (region m) (view m) (own m) (scal m) (changed m) (fstat m) v (auto m) (zpt m) (pixscale m).
Definition with_auto (m : image) v := Image (store m) (region m) (view m) (own m) (scal m) (changed m) (fstat m) (lstat m) v (zpt m) (pixscale m).
Definition with_calib (m : image) z p := Image (store m) (region m) (view m) (own m) (scal m) (changed m) (fstat m) (lstat m) (auto m) z p.

Inductive outcome := Done | Counts (l : list nat) | Seen (s : stats) | Exc (e : exn) | NotANumber.

(** _extractArray 1218-1223 *)
Definition extract (m : image) (r : option box) : arr := match r with None => store m | Some b => sub (store m) b end.
(** _applyArray 1225-1230 *)
Definition apply_array (m : image) (r : option box) (d : arr) : image :=
  with_store m (match r with None => Arr (nx (store m)) (ny (store m)) (px d) | Some b => put (store m) b d end).
(** the data attribute 780-787 *)
Definition data (m : image) : arr := match view m with Some r => extract m r | None => own m end.
(** assigning into the active array: through the view, or into the copy *)
Definition edit (m : image) (f : nat -> nat -> R -> R) : image :=
  let d := Arr (nx (data m)) (ny (data m)) (fun i j => f i j (px (data m) i j)) in
  match view m with Some r => apply_array m r d | None => with_active m (region m) None d end.

(** applyChanges 308-319 ([_directaccess] is True for ArrayImage).  The final [_fstatd.clear()] raises if
    [_fstatd] is None, after everything else is done. *)
Definition applyChanges (m : image) : image * outcome :=
  let finish (m : image) :=
    let m := with_lstat (with_changed m false) None in
    match fstat m with CNone => (m, Exc AttributeError) | _ => (with_fstat m CEmpty, Done) end in
  if is_linear (scal m) then finish m
  else match inv (scal m) with
       | None => (m, Exc TypeError)
       | Some g =>
           let d := data m in let t := extract m (region m) in
           if (nx d =? nx t)%nat && (ny d =? ny t)%nat then finish (apply_array m (region m) (amap g d))
           else (m, Exc ValueError)
       end.

(** the argument of activateRange 262-306 *)
Inductive request := Whole | Square (xc yc rad : Z) | Box (b : box) | Other.
Definition activateRange (m : image) (q : request) : image * outcome :=
  let m := if auto m && changed m then fst (applyChanges m) else m in   (* 274-279: any exception becomes a warning *)
  let n1 := Z.of_nat (nx (store m)) in let n2 := Z.of_nat (ny (store m)) in
  let r := match q with
           | Whole => Ok None
           | Square xc yc rad =>
               if (xc <? 0)%Z || (xc >=? n1)%Z || (yc <? 0)%Z || (yc >=? n2)%Z then Raise IndexError
               else Ok (Some (if (xc - rad >? 0)%Z then (xc - rad)%Z else 0%Z,
                              if (xc + rad <=? n1)%Z then (xc + rad)%Z else n1,
                              if (yc - rad >? 0)%Z then (yc - rad)%Z else 0%Z,
                              if (yc + rad <=? n2)%Z then (yc + rad)%Z else n2))
           | Box b => Ok (Some b)
           | Other => Raise ValueError
           end in
  match r with
  | Raise e => (m, Exc e)
  | OutOfFuel => (m, Done)
  | Ok r =>
      let im := extract m r in
      match fwd (scal m) with
      | None => (with_active m r (view m) (own m), Exc AttributeError)   (* 305 precedes 306 *)
      | Some f => (with_active m r (if shares (scal m) then Some r else None) (amap f im), Done)
      end
  end.

(** statistics 490-526; numpy's min of an empty array raises *)
Fixpoint lmin (l : list R) (d : R) : R := match l with [] => d | x :: r => lmin r (Rmin d x) end.
Fixpoint lmax (l : list R) (d : R) : R := match l with [] => d | x :: r => lmax r (Rmax d x) end.
Definition amin (l : list R) : option R := match l with [] => None | x :: r => Some (lmin r x) end.
Definition amax (l : list R) : option R := match l with [] => None | x :: r => Some (lmax r x) end.
Definition std (l : list R) : option R := option_map sqrt (var l).
Definition stats_of (l : list R) : option stats :=
  match median l, mean l, std l, amin l, amax l with
  | Some a, Some b, Some c, Some d, Some e => Some (Stats a b c d e) | _, _, _, _, _ => None end.
Definition fullStats (m : image) : image * (stats + exn) :=
  match fstat m with
  | CFull s => (m, inl s)
  | c =>
      match fwd (scal m) with
      | None => (m, inr AttributeError)
      | Some f =>
          match c, stats_of (map f (ravel (store m))) with
          | CNone, _ => (m, inr TypeError)               (* None does not support item assignment *)
          | _, Some s => (with_fstat m (CFull s), inl s)
          | _, None => (m, inr ValueError)
          end
      end
  end.
Definition linearStats (m : image) : image * (stats + exn) :=
  match lstat m with
  | Some s => (m, inl s)
  | None => match stats_of (ravel (store m)) with
            | Some s => (with_lstat m (Some s), inl s) | None => (m, inr ValueError) end
  end.

(** setScaling 331-355: by None, by name, or the LogScaling options; 'sb' needs a zero point and a pixel scale *)
Inductive screq := SNone | SLinear | SPower | SExp | SAsinh | SLog (lo up : R) | SLogBase (b : R) | SSb | SUnknown.
Definition make_scaling (m : image) (q : screq) : image * (option scaling + exn) :=
  match q with
  | SNone => (m, inl (if is_linear (scal m) then None else Some Linear))
  | SLinear => (m, inl (Some Linear)) | SPower => (m, inl (Some Power))
  | SExp => (m, inl (Some Exp)) | SAsinh => (m, inl (Some Asinh))
  | SLog lo up => match linearStats m with
                  | (m, inl s) => (m, inl (Some (Log (s_min s) (s_max s) lo up)))
                  | (m, inr e) => (m, inr e) end
  | SLogBase b => (m, inl (Some (LogBase b)))
  | SSb => (m, match zpt m, pixscale m with
               | Some z, Some (a, b) => inl (Some (SB (5/2 * log10 (a * b) - z)))
               | _, _ => inr ValueError end)
  | SUnknown => (m, inr KeyError)
  end.
Definition again (r : option box) : request := match r with None => Whole | Some b => Box b end.
Definition setScaling (m : image) (q : screq) : image * outcome :=
  match make_scaling m q with
  | (m, inr e) => (m, Exc e)
  | (m, inl None) => (m, Done)
  | (m, inl (Some s)) => let m := with_scal m s in activateRange m (again (region m))
  end.

(** ** Replacing pixels 357-489 *)
Inductive action := AMedian | AFullMedian | ANoclipMedian | AMean | AFullMean | ANoclipMean | AValue (v : R) | ABad.
Definition kept (a : arr) (c : R -> bool) : list R := filter (fun x => negb (c x)) (ravel a).
(** _repl_inds 463-489; the builtin [sum] of a two-dimensional array adds its rows *)
Definition column_counts (a : arr) (c : R -> bool) : list nat :=
  map (fun j => length (filter (fun i => c (px a i j)) (seq 0 (nx a)))) (seq 0 (ny a)).
Definition repl_inds (m : image) (act : action) (c : R -> bool) : image * outcome :=
  let im := data m in
  let set (m : image) (v : option R) :=
    match v with
    | Some v => (with_changed (edit m (fun _ _ x => if c x then v else x)) true, Counts (column_counts im c))
    | None => if existsb c (ravel im) then (m, NotANumber) else (with_changed m true, Counts (column_counts im c))
    end in
  match act with
  | AMedian => set m (median (ravel im))
  | AMean => set m (mean (ravel im))
  | ANoclipMedian => set m (median (kept im c))
  | ANoclipMean => set m (mean (kept im c))
  | AFullMedian => match fullStats m with (m, inl s) => set m (Some (s_median s)) | (m, inr e) => (m, Exc e) end
  | AFullMean => match fullStats m with (m, inl s) => set m (Some (s_mean s)) | (m, inr e) => (m, Exc e) end
  | AValue v => set m (Some v)
  | ABad => (m, Exc ValueError)
  end.
(** clipOutliers 357-386 *)
Inductive limits := LPair (a b : R) | LScalar (a : R).
Definition outside (lo hi x : R) : bool := Rltb hi x || Rltb x lo.
Definition clipOutliers (m : image) (l : limits) (percentage : bool) (act : action) : image * outcome :=
  let '(a, b) := match l with LPair a b => (a, b) | LScalar a => (- a, a) end in
  if percentage then
    match amin (ravel (data m)), amax (ravel (data m)) with
    | Some mi, Some ma => repl_inds m act (outside (mi + a * (ma - mi) / 100) (mi + b * (ma - mi) / 100))
    | _, _ => (m, Exc ValueError)
    end
  else repl_inds m act (outside a b).
(** clipSigma 388-413 ([fullsig] only chooses an array that is not used) *)
Definition clipSigma (m : image) (sigma : R) (fullsig : bool) (act : action) : image * outcome :=
  match fwd (scal m) with
  | None => (m, Exc AttributeError)
  | Some _ =>
      match fullStats m with
      | (m, inr e) => (m, Exc e)
      | (m, inl s) => repl_inds m act (outside (s_mean s - sigma * s_std s) (s_mean s + sigma * s_std s))
      end
  end.
(** clipThreshold 427-459 *)
Inductive comparison := CLt | CGt | CGe | CLe | CBad.
Definition compares (c : comparison) (t x : R) : bool :=
  match c with CLt => Rltb x t | CGt => Rltb t x | CGe => Rleb t x | CLe => Rleb x t | CBad => false end.
Definition clipThreshold (m : image) (t : R) (act : action) (c : comparison) : image * outcome :=
  match c with CBad => (m, Exc ValueError) | _ => repl_inds m act (compares c t) end.
(** offsetData 461-483 *)
Inductive offset := OMin | OMinp1 | OGmin | OGminp1 | OValue (v : R).
Definition offsetData (m : image) (o : offset) : image * outcome :=
  let shift (m : image) (v : R) := (with_changed (edit m (fun _ _ x => x - v)) true, Done) in
  let least (m : image) (d : R) := match amin (ravel (data m)) with Some v => shift m (v + d) | None => (m, Exc ValueError) end in
  let gleast (m : image) (d : R) := match fullStats m with (m, inl s) => shift m (s_min s + d) | (m, inr e) => (m, Exc e) end in
  match o with
  | OMin => least m 0 | OMinp1 => least m 1 | OGmin => gleast m 0 | OGminp1 => gleast m 1 | OValue v => shift m v
  end.

(** ** The constructor 192-236, 1193-1216: with no scaling the range argument is replaced by None (235-236) *)
Definition create (a : arr) (r : request) (q : option screq) : image * outcome :=
  let m := Image a None (Some None) a Linear false CEmpty None false None None in
  match q with
  | None => activateRange m Whole
  | Some q => match make_scaling m q with
              | (m, inr e) => (m, Exc e)
              | (m, inl None) => (m, Done)
              | (m, inl (Some s)) => activateRange (with_scal m s) r
              end
  end.

(** ** Histories of one image object *)
Inductive op :=
| Activate (q : request)
| SetScaling (q : screq)
| Apply
| Poke (i j : nat) (v : R)                      (* im.data[i,j] = v *)
| ClipOutliers (l : limits) (p : bool) (a : action)
| ClipSigma (s : R) (f : bool) (a : action)
| ClipThreshold (t : R) (a : action) (c : comparison)
| Offset (o : offset)
| Stage (f : arr -> arr)                        (* plProcess of the calibration stages 1463-1473, 1666-1673 *)
| FullStats | LinearStats
| SetAuto (b : bool)
| Calibrate (z : option R) (p : option (R * R)).
Definition told (r : image * (stats + exn)) : image * outcome :=
  match r with (m, inl s) => (m, Seen s) | (m, inr e) => (m, Exc e) end.
Definition step (m : image) (o : op) : image * outcome :=
  match o with
  | Activate q => activateRange m q
  | SetScaling q => setScaling m q
  | Apply => applyChanges m
  | Poke i j v => (edit m (fun i' j' x => if (i' =? i)%nat && (j' =? j)%nat then v else x), Done)
  | ClipOutliers l p a => clipOutliers m l p a
  | ClipSigma s f a => clipSigma m s f a
  | ClipThreshold t a c => clipThreshold m t a c
  | Offset o => offsetData m o
  | Stage f => applyChanges (with_active m (region m) None (f (data m)))
  | FullStats => told (fullStats m)
  | LinearStats => told (linearStats m)
  | SetAuto b => (with_auto m b, Done)
  | Calibrate z p => (with_calib m z p, Done)
  end.
