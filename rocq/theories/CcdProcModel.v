(** * CcdProcModel: image calibration stages (astropysics/ccd.py: ImageBiasSubtractor 1290-1475, ImageCombiner
    1478-1625, ImageFlattener 1628-1675, NoiseModel 67-190).
    Not modelled: interactive fitting, masked input images, non-finite pixels (an average of nothing is the outcome
    [PNaN]), numpy broadcasting between images of different shapes (taken as ValueError), spline interpolation for
    fractional shifts (whole-pixel shifts only, where the spline passes through the samples and positions off the
    image read 0, scipy's default), a flat field of None. *)
From Coq Require Import Reals ZArith List Bool Arith Lia Lra.
From Verif Require Import PyBase AlgModel CcdModel.
Import ListNotations.
Open Scope R_scope.

Definition amap2 (f : R -> R -> R) (a b : arr) : arr := Arr (nx a) (ny a) (fun i j => f (px a i j) (px b i j)).
Definition tr (a : arr) : arr := Arr (ny a) (nx a) (fun i j => px a j i).                         (* a.T *)
Definition from_row (a : arr) (e : Z) : arr := sub a (e, Z.of_nat (nx a), 0%Z, Z.of_nat (ny a)).   (* a[e:] *)
Definition to_row (a : arr) (e : Z) : arr := sub a (0%Z, e, 0%Z, Z.of_nat (ny a)).                 (* a[:e] *)
Definition col (a : arr) (j : nat) : list R := map (fun i => px a i j) (seq 0 (nx a)).
Definition agree (a b : arr) : bool := (nx a =? nx b)%nat && (ny a =? ny b)%nat.

(** numpy mean / median / max / min; None: nan, or (max, min) ValueError *)
Inductive how := HMean | HMedian | HMax | HMin.
Definition average (h : how) (l : list R) : option R :=
  match h with HMean => mean l | HMedian => median l | HMax => amax l | HMin => amin l end.
Definition nothing (h : how) : exn + unit := match h with HMax | HMin => inl ValueError | _ => inr tt end.
(** combinemethod: a name, a callable (called with an image, or with an image and axis=0), anything else *)
Inductive combinemethod := CName (h : how) | CCall (f : arr -> R) (g : arr -> nat -> R) | CInvalid.

Inductive pres := POk (a : arr) (curve : option (nat -> R)) | PRaise (e : exn) | PNaN.
Definition none (h : how) : pres := match nothing h with inl e => PRaise e | inr _ => PNaN end.

(** ** ImageBiasSubtractor.subtractFromImage 1355-1462 *)
Inductive axis := AxX | AxY | AxBad.
Record bias := Bias {
  biasframe : option arr; biasregion : option box; overscan : option (Z * bool); overscanaxis : axis;
  overscanfit : option (nat -> (nat -> R) -> nat -> R);      (* fit of the length and the curve, evaluated *)
  method : combinemethod; trim : bool }.
Definition step_frame (b : bias) (im : arr) : pres :=                                      (* 1372-1373 *)
  match biasframe b with
  | None => POk im None
  | Some f => if agree im f then POk (amap2 Rminus im f) None else PRaise ValueError
  end.
Definition step_region (b : bias) (im : arr) : pres :=                                     (* 1375-1394 *)
  match biasregion b with
  | None => POk im None
  | Some r =>
      match method b with
      | CName h => match average h (ravel (sub im r)) with Some v => POk (amap (fun x => x - v) im) None | None => none h end
      | CCall f _ => POk (amap (fun x => x - f im) im) None
      | CInvalid => PRaise ValueError
      end
  end.
Definition step_overscan (b : bias) (im : arr) : pres :=                                   (* 1396-1456 *)
  match overscan b with
  | None => POk im None
  | Some (edge, lft) =>
      match overscanaxis b with
      | AxBad => PRaise ValueError
      | ax =>
          let im := match ax with AxY => tr im | _ => im end in
          let os := if lft then from_row im edge else to_row im edge in
          let curve := match method b with
            | CName h => if (nx os =? 0)%nat then inl (none h)
                         else inr (fun j => match average h (col os j) with Some v => v | None => 0 end)
            | CCall _ g => inr (g os)
            | CInvalid => inl (PRaise ValueError) end in
          match curve with
          | inl e => e
          | inr c =>
              let c := match overscanfit b with Some fit => fit (ny os) c | None => c end in
              let im := Arr (nx im) (ny im) (fun i j => px im i j - c j) in
              let im := if trim b then (if lft then from_row im edge else to_row im edge) else im in
              POk im (Some c)
          end
      end
  end.
Definition subtractFromImage (b : bias) (im : arr) : pres :=
  match step_frame b im with
  | POk im _ => match step_region b im with
                | POk im _ => match step_overscan b im with
                              | POk im c => POk (match overscanaxis b with AxY => tr im | _ => im end) c   (* 1457-1458 *)
                              | r => r end
                | r => r end
  | r => r end.

(** ** ImageCombiner.combineImages 1539-1618 *)
Inductive combining := KMean | KMedian | KSum | KMin | KMax | KWeights (ws : list R) | KInvalid.
(** numpy broadcasting of the weights against the images: a single one is repeated *)
Definition widen (n : nat) (l : list R) : list R := match l with [x] => repeat x n | _ => l end.
(** one pixel of the result; None: masked *)
Definition pixel_op (k : combining) (l : list R) : option R :=
  match k with
  | KMean => mean l | KMedian => median l | KMin => amin l | KMax => amax l
  | KSum => match l with [] => None | _ => Some (rsum l) end
  | KWeights ws => Some (rsum (map2 Rmult (widen (length ws) l) (widen (length l) ws)))
  | KInvalid => None
  end.
(** 1601-1604: masked where (x-mean)/std exceeds sigclip; 0/0 compares as False *)
Definition clipped (sc : R) (l : list R) (x : R) : bool :=
  match mean l, std l with
  | Some m, Some s => if Req_EM_T s 0 then false else Rltb sc ((x - m) / s)
  | _, _ => false end.
Definition used (k : combining) (sc : option R) (l : list R) : list R :=
  match sc, k with
  | Some _, KWeights _ => l                        (* 1597: np.array drops the mask *)
  | Some s, _ => filter (fun x => negb (clipped s l x)) l
  | None, _ => l end.
Definition stack (ims : list arr) (i j : nat) : list R := map (fun a => px a i j) ims.
(** whole-pixel shift 1564-1581: output position c reads input position c - shift *)
Definition moved (a : arr) (s : Z * Z) : arr :=
  Arr (nx a) (ny a) (fun i j =>
    let x := (Z.of_nat i - fst s)%Z in let y := (Z.of_nat j - snd s)%Z in
    if (0 <=? x)%Z && (x <? Z.of_nat (nx a))%Z && (0 <=? y)%Z && (y <? Z.of_nat (ny a))%Z then px a (Z.to_nat x) (Z.to_nat y) else 0).
Definition zmin (l : list Z) : Z := match l with [] => 0%Z | x :: r => fold_right Z.min x r end.
Definition zmax (l : list Z) : Z := match l with [] => 0%Z | x :: r => fold_right Z.max x r end.
Record result := Result { r_nx : nat; r_ny : nat; r_px : nat -> nat -> option R }.
Definition rsub (a : result) (b : box) : result :=
  let '(xl,xu,yl,yu) := b in
  Result (len (r_nx a) xl xu) (len (r_ny a) yl yu) (fun i j => r_px a (low (r_nx a) xl + i) (low (r_ny a) yl + j)).
Definition weights_fit (k : combining) (n : nat) : bool :=
  match k with KWeights ws => (length ws =? n)%nat || (length ws =? 1)%nat || (n =? 1)%nat | _ => true end.
Definition shifted (shifts : list (Z * Z)) (ims : list arr) : option (list arr) :=        (* 1553-1581 *)
  match shifts with
  | [] => Some ims
  | _ => if (length ims <=? length shifts)%nat then Some (map2 moved ims shifts) else None
  end.
Definition combineImages (k : combining) (sc : option R) (shifts : list (Z * Z)) (trm : bool) (ims : list arr) : result + exn :=
  match ims with
  | [] => inr IndexError
  | im0 :: _ =>
      if negb (forallb (agree im0) ims) then inr ValueError
      else match shifted shifts ims with
      | None => inr IndexError
      | Some ims' =>
          match k with
          | KInvalid => inr ValueError
          | _ =>
              if negb (weights_fit k (length ims)) then inr ValueError
              else
                let r := Result (nx im0) (ny im0) (fun i j => pixel_op k (used k sc (stack ims' i j))) in
                match shifts, trm with
                | _ :: _, true =>          (* 1609-1614; the axes of the shifts are swapped (1560) *)
                    let xs := map snd shifts in let ys := map fst shifts in
                    inl (rsub r (zmax xs, (Z.of_nat (nx im0) - zmin xs)%Z, zmax ys, (Z.of_nat (ny im0) - zmin ys)%Z))
                | _, _ => inl r
                end
          end
      end
  end.

(** ** ImageFlattener.flattenImage 1643-1663 *)
Definition flattenImage (h : how) (flat im : arr) : pres :=
  match average h (ravel flat) with
  | None => none h
  | Some b => if agree im flat then POk (amap2 (fun x f => x * b / f) im flat) None else PRaise ValueError
  end.

(** ** NoiseModel.__call__ 86-97: the noisy data, limited; CCDNoise.var 186-190 *)
Definition limit (floor ceiling : option R) (x : R) : R :=
  let x := match ceiling with Some c => if Rlt_dec c x then c else x | None => x end in
  match floor with Some f => if Rlt_dec x f then f else x | None => x end.
Definition ccd_var (gain readnoise snoise : R) (d : R) : R :=
  let rn := readnoise / gain in let se := snoise * d in rn * rn + d / gain + se * se.
(** CCDNoise._dataPlusNoise 171-184: [poisson] and [normal] are the draws for this pixel *)
Definition ccd_noise (gain readnoise snoise : R) (poisson : R -> R) (normal : R -> R) (d : R) : R :=
  let es := d / gain in
  let gvar := ccd_var gain readnoise snoise d - es in
  poisson es + (if Rle_dec gvar 0 then 0 else normal (sqrt gvar)).
