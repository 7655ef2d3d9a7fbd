(** * FeatModel: the features of a spectrum and its redshift quality, astropysics/spec.py 390-407, 501-510, 996-1110, 1504-1690

    Over the reals.  Units are SpecLineModel's business (C56): here the feature and the spectrum have the same.  A continuum model is evaluated at each x by itself.  Results that are not finite (a division by zero, nan) are None.  Not modelled: fitting (fit other than False), errors (always 0 or not a number), smoothing and the search for edges without a continuum in addFeatureLocation. *)
From Coq Require Import List Bool Reals ZArith String Arith.
From Verif Require Import PyBase RealTrig AlgModel CosmoDistModel PhotModel SpecModel SpecLineModel.
Import ListNotations.
Open Scope R_scope.

(** the continuum argument of a feature *)
Inductive fcont := FromSpec | Pair (a b : R) | Model (g : R -> R) | Values (l : list R).
(** the continuum attribute of a spectrum *)
Inductive scontinuum := NoCont | ContModel (g : R -> R) | ContValues (l : list R).
(** center: None until set, then the extent's middle is used; Some None is nan or inf *)
Record feat := Feat { extent : R * R; fccont : fcont; center : option (option R); flux : R; ew : option R; known : option string }.
(** SpectralFeature.__init__ 1504-1517 *)
Definition new_feat (e : R * R) (c : fcont) : feat := Feat e c None 0 None None.
(** _getCenter 1532-1540 *)
Definition get_center (f : feat) : option R := match center f with Some c => c | None => Some ((fst (extent f) + snd (extent f)) / 2) end.
Definition quot (a b : R) : option R := if Req_EM_T b 0 then None else Some (a / b).
(** numpy broadcasting of one-dimensional arrays *)
Definition bcast (f : R -> R -> R) (a b : list R) : @res (list R) :=
  if Nat.eqb (List.length a) (List.length b) then Ok (map2 f a b)
  else match a, b with [u], _ => Ok (map (f u) b) | _, [v] => Ok (map (fun u => f u v) a) | _, _ => Raise ValueError end.
Inductive edges := ENone | Tweak | Interp.

(** computeFeatureData 1546-1668 with fit=False; 'interp' does what None does *)
Definition compute_plain (x y : list R) (sc : scontinuum) (f : feat) : feat * @res unit :=
  let x1 := Rmin (fst (extent f)) (snd (extent f)) in let x2 := Rmax (fst (extent f)) (snd (extent f)) in
  let cont := match fccont f with
              | FromSpec => match sc with NoCont => None | ContModel g => Some (map g x) | ContValues l => Some l end
              | Pair a b => Some (map (fun t => a + (b - a) * ((t - x1) / (x2 - x1))) x)
              | Model g => Some (map g x)
              | Values l => Some l
              end in
  let i1 := searchsorted x x1 in let i2 := searchsorted x x2 in
  let xs := slice i1 i2 x in let ys := slice i1 i2 y in
  match xs with
  | [] => (f, Raise IndexError)
  | _ =>
    let cen := quot (AlgModel.rsum (map2 Rmult ys xs)) (AlgModel.rsum ys) in
    let f' := Feat (extent f) (fccont f) (Some cen) (flux f) (ew f) (known f) in
    let cs := match cont with None => map (fun _ => 0) xs | Some l => slice i1 i2 l end in
    let d1 := match i1 with O => O | S k => k end in
    let d2 := match i2 with O => O | S _ => S i2 end in
    match convolve_valid (slice d1 d2 x) with
    | Raise e => (f', Raise e)
    | OutOfFuel => (f', OutOfFuel)
    | Ok dx =>
      match bcast Rminus ys cs with
      | Raise e => (f', Raise e)
      | OutOfFuel => (f', OutOfFuel)
      | Ok d =>
        match bcast Rmult d dx with
        | Raise e => (f', Raise e)
        | OutOfFuel => (f', OutOfFuel)
        | Ok p => let fl := AlgModel.rsum p in
                  (Feat (extent f) (fccont f) (Some cen) fl (match AlgModel.mean cs with Some m => quot fl m | None => None end) (known f), Ok tt)
        end
      end
    end
  end.
Definition computeFeatureData (x y : list R) (sc : scontinuum) (e : edges) (f : feat) : feat * @res unit :=
  match e with
  | Tweak =>
    let x1 := Rmin (fst (extent f)) (snd (extent f)) in let x2 := Rmax (fst (extent f)) (snd (extent f)) in
    match nth_error x (searchsorted x x1), nth_error x (searchsorted x x2) with
    | Some u, Some v => compute_plain x y sc (Feat (u, v) (fccont f) (center f) (flux f) (ew f) (known f))
    | _, _ => (f, Raise IndexError)
    end
  | _ => compute_plain x y sc f
  end.
(** identify 1670-1677 *)
Inductive identity := NoId | NameId (s : string) | KnownId (s : string) | OtherId.
Definition identify (f : feat) (i : identity) : @res feat :=
  match i with NoId => Ok f | NameId _ => Raise NotImplementedError | KnownId s => Ok (Feat (extent f) (fccont f) (center f) (flux f) (ew f) (Some s)) | OtherId => Raise ValueError end.

(** a spectrum with its features *)
Record fspectrum := FS { fx : list R; fy : list R; fsc : scontinuum; feats : list feat }.
Definition with_feats (s : fspectrum) (l : list feat) : fspectrum := FS (fx s) (fy s) (fsc s) l.
(** addFeatureRange 996-1019 *)
Definition addFeatureRange (s : fspectrum) (lower upper : R) (c : fcont) (i : identity) : fspectrum * @res feat :=
  match computeFeatureData (fx s) (fy s) (fsc s) Interp (new_feat (lower, upper) c) with
  | (f, Ok _) => match identify f i with Ok f' => (with_feats s (feats s ++ [f']), Ok f') | Raise e => (s, Raise e) | OutOfFuel => (s, OutOfFuel) end
  | (_, Raise e) => (s, Raise e)
  | (_, OutOfFuel) => (s, OutOfFuel)
  end.
(** removeSpectralFeature 1099-1110: an integer may be negative; with a name, the features' attribute name (there is none) is read first, then str.index is given a list *)
Inductive iorname := Index (i : Z) | Name (s : string) | Other.
Definition remove_at {A} (i : nat) (l : list A) : list A := firstn i l ++ skipn (S i) l.
Definition removeSpectralFeature (s : fspectrum) (i : iorname) : fspectrum * @res unit :=
  match i with
  | Other => (s, Raise TypeError)
  | Name _ => (s, Raise (match feats s with [] => TypeError | _ => AttributeError end))
  | Index i => let n := Z.of_nat (List.length (feats s)) in let k := if (i <? 0)%Z then (i + n)%Z else i in
               if ((0 <=? k) && (k <? n))%Z then (with_feats s (remove_at (Z.to_nat k) (feats s)), Ok tt) else (s, Raise IndexError)
  end.
(** removeFeatureLocation 1088-1096; np.argsort puts nan last; of equal distances the first (which one is not specified by numpy) *)
Definition closer (a b : option R) : bool := match a, b with Some u, Some v => if Rlt_dec u v then true else false | Some _, None => true | None, _ => false end.
Fixpoint first_least (i bi : nat) (b : option R) (l : list (option R)) : nat := match l with [] => bi | a :: r => if closer a b then first_least (S i) i a r else first_least (S i) bi b r end.
Definition separation (loc : R) (f : feat) : option R := match get_center f with Some c => Some (Rabs (c - loc)) | None => None end.
Definition removeFeatureLocation (s : fspectrum) (loc : R) : fspectrum * @res unit :=
  match map (separation loc) (feats s) with
  | [] => (s, Raise IndexError)
  | a :: r => removeSpectralFeature s (Index (Z.of_nat (first_least 1 0 a r)))
  end.
(** the features property 501-510; None is an object that is no SpectralFeature *)
Fixpoint all_some {A} (l : list (option A)) : option (list A) := match l with [] => Some [] | Some a :: r => match all_some r with Some b => Some (a :: b) | None => None end | None :: _ => None end.
Definition setFeatures (s : fspectrum) (val : list (option feat)) : fspectrum * @res unit :=
  match all_some val with
  | None => (s, Raise TypeError)
  | Some l => match feats s with [] => (with_feats s l, Ok tt) | _ => (s, Raise TypeError) end
  end.
(** addFeatureLocation 1021-1086 of a spectrum with a continuum, smooth=None, no identity *)
Definition rceil (r : R) : Z := (- rfloor (- r))%Z.
Definition zslice {A} (i j : Z) (l : list A) : list A := slice (Z.to_nat i) (Z.to_nat j) l.
(** the positions of the values that are not 0 *)
Definition non_zero (l : list R) : list nat := filter (fun i => if Req_EM_T (nth i l 0) 0 then false else true) (seq 0 (List.length l)).
(** transi[transorti][transi[transorti] < xwi][0]: the nearest below, and above *)
Definition last_below (c : R) (l : list nat) : option nat := fold_left (fun b i => if Rlt_dec (INR i) c then Some i else b) l None.
Fixpoint first_above (c : R) (l : list nat) : option nat := match l with [] => None | i :: r => if Rlt_dec c (INR i) then Some i else first_above c r end.
Definition addFeatureLocation (s : fspectrum) (loc : R) (window : option R) : fspectrum * @res feat :=
  let n := List.length (fx s) in
  let xi := interp loc (combine (fx s) (map INR (seq 0 n))) in
  let '(wl, wu, xwi) := match window with
    | Some w => let wl := rfloor (xi - w / 2) in let wu := rceil (xi + w / 2) in let c := IZR (wu - wl) / 2 in
                if (wl <? 0)%Z then (0%Z, wu, c + IZR wl) else (wl, wu, c)
    | None => (0%Z, Z.of_nat n, (INR n - 1) / 2)
    end in
  let x := zslice wl wu (fx s) in let y := zslice wl wu (fy s) in
  match fsc s with
  | NoCont => (s, Raise NotImplementedError) (* not modelled *)
  | sc => let cont := match sc with ContModel g => map g x | ContValues l => zslice wl wu l | NoCont => [] end in
          match bcast Rminus y cont with
          | Raise e => (s, Raise e)
          | OutOfFuel => (s, OutOfFuel)
          | Ok d => match last_below xwi (non_zero d), first_above xwi (non_zero d) with
                    | Some a, Some b => addFeatureRange s (nth a x 0) (nth b x 0) (Values cont) NoId
                    | _, _ => (s, Raise IndexError)
                    end
          end
  end.

(** zqual 390-407: [q] is the value kept *)
Definition zqmap : list (Z * string) := [((-1)%Z, "unknown"%string); (0%Z, "none"%string); (1%Z, "bad"%string); (2%Z, "average"%string); (3%Z, "good"%string); (4%Z, "excellent"%string)].
Inductive zval := ZNum (r : R) | ZStr (s : string).
Definition trunc (r : R) : Z := if Rle_dec 0 r then rfloor r else rceil r.
Definition setZqual (q : Z) (v : zval) : Z * @res unit :=
  match v with
  | ZStr s => match find (fun p => String.eqb (snd p) s) zqmap with Some p => (fst p, Ok tt) | None => (q, Raise KeyError) end
  | ZNum r => let k := trunc r in if existsb (fun p => Z.eqb (fst p) k) zqmap then (k, Ok tt) else (q, Raise KeyError)
  end.
Definition getZQualStr (q : Z) : @res string := match find (fun p => Z.eqb (fst p) q) zqmap with Some p => Ok (snd p) | None => Raise KeyError end.
