(** * FitsModel: images in FITS files (astropysics/ccd.py 964-1191: FitsImage, on CCDImage 195-355, 745-806).
    A file is a list of HDUs as pyfits gives them: an image (rows first) or no data, and the five header entries that are
    read.  Pixels are real numbers.  Left out: what C80-C84 say of CCDImage in general (clipping, offsets, statistics; the
    scalings 'log' and 'sb'; applyChangesOnActivate, which is off), closing the file, NaN (a logarithm of a number that is
    not positive), sharing of memory with an array given to the constructor. *)
From Coq Require Import Reals ZArith List Bool Arith String.
From Verif Require SpecModel.
From Verif Require Import PyBase CcdModel.
Import ListNotations.
Open Scope R_scope.

Record keys := Keys { PIXSCALE : option R; PIXSCAL1 : option R; PIXSCAL2 : option R; ZEROPOINT : option R; ZEROPT : option R }.
Record hdu := HDU { pixels : option arr; hkeys : keys }.
Definition transpose (a : arr) : arr := Arr (ny a) (nx a) (fun i j => px a j i).
(** the scalings without parameters: transform, invtransform, and whether transform returns the array itself (849-932) *)
Inductive kind := KLinear | KPower | KExp | KAsinh.
Definition fwd_k (k : kind) (x : R) : R := match k with KLinear | KPower => x | KExp => exp x | KAsinh => arcsinh x end.
Definition inv_k (k : kind) (x : R) : R := match k with KLinear | KPower => x | KExp => ln x | KAsinh => sinh x end.
Definition shares_k (k : kind) : bool := match k with KLinear | KPower => true | _ => false end.
(** [fdict]: _fstatd is a dictionary, not None; [view]: the HDU and the range _active is a view of; [own]: _active when it is not a view *)
Record fimage := FImage { hdus : list hdu; chdu : option Z; newhdu : Z; rng : option box; view : option (nat * option box); own : arr; scal : kind; fdict : bool; zpt : option R; pixscale : option (R * R) }.
(** list indexing with negative indices *)
Definition position (n : nat) (z : Z) : option nat := if (z <? 0)%Z then (if (z + Z.of_nat n <? 0)%Z then None else Some (Z.to_nat (z + Z.of_nat n))) else if (z <? Z.of_nat n)%Z then Some (Z.to_nat z) else None.
(** the end of _extractArray 1112-1121: the data of HDU [z] in the range, and the position of the HDU *)
Definition cut (f : list hdu) (z : Z) (r : option box) : @res (nat * arr) :=
  match position (List.length f) z with
  | None => Raise IndexError
  | Some k =>
      match nth_error f k with
      | None => Raise IndexError
      | Some h =>
          match pixels h with
          | None => Raise (match r with None => AttributeError | Some _ => ValueError end)
          | Some a =>
              match r with
              | None => Ok (k, transpose a)
              | Some (xl, xu, yl, yu) =>
                  if (xl <? 0)%Z || (xu >? Z.of_nat (ny a))%Z || (yl <? 0)%Z || (yu >? Z.of_nat (nx a))%Z then Raise IndexError
                  else Ok (k, sub (transpose a) (xl, xu, yl, yu))
              end
          end
      end
  end.
(** _updateFromHeader 1136-1152 *)
Definition read_scale (d : keys) (old : option (R * R)) : option (R * R) :=
  match PIXSCALE d with
  | Some v => Some (v, v)
  | None => match PIXSCAL1 d with Some v => match PIXSCAL2 d with Some w => Some (v, w) | None => Some (v, v) end | None => old end
  end.
Definition read_zpt (d : keys) (old : option R) : option R := match ZEROPOINT d with Some v => Some v | None => match ZEROPT d with Some v => Some v | None => old end end.
Definition updateFromHeader (m : fimage) (k : nat) : fimage :=
  match nth_error (hdus m) k with
  | Some h => FImage (hdus m) (chdu m) (newhdu m) (rng m) (view m) (own m) (scal m) (fdict m) (read_zpt (hkeys h) (zpt m)) (read_scale (hkeys h) (pixscale m))
  | None => m
  end.
Definition with_chdu (m : fimage) (z : option Z) : fimage := FImage (hdus m) z (newhdu m) (rng m) (view m) (own m) (scal m) (fdict m) (zpt m) (pixscale m).
(** _extractArray 1087-1121: on a new HDU a range outside it ends in a call with an unknown keyword, after _chdu is set; other failures put _chdu back *)
Definition extractArray (m : fimage) (r : option box) : fimage * @res (nat * arr) :=
  let switch :=
    if negb (fdict m) then (m, Raise AttributeError)
    else match cut (hdus m) (newhdu m) r with
         | Ok (k, a) => (updateFromHeader (with_chdu m (Some (newhdu m))) k, Ok (k, a))
         | Raise IndexError => (with_chdu m (Some (newhdu m)), Raise TypeError)
         | Raise e => (m, Raise e)
         | OutOfFuel => (m, OutOfFuel)
         end in
  match chdu m with
  | Some z => if (z =? newhdu m)%Z then (m, cut (hdus m) z r) else switch
  | None => switch
  end.
(** [_rng = range; _active = scalefunc(im)] 302-305 *)
Definition activated (m : fimage) (r : option box) (k : nat) (a : arr) : fimage :=
  FImage (hdus m) (chdu m) (newhdu m) r (if shares_k (scal m) then Some (k, r) else None) (amap (fwd_k (scal m)) a) (scal m) (fdict m) (zpt m) (pixscale m).
Definition activate (m : fimage) (r : option box) : fimage * @res unit :=
  match extractArray m r with
  | (m', Ok (k, a)) => (activated m' r k a, Ok tt)
  | (m', Raise e) => (m', Raise e)
  | (m', OutOfFuel) => (m', OutOfFuel)
  end.
(** activateRange 263-305; shape 756-761 is the shape of the whole selected image *)
Definition activateRange (m : fimage) (q : request) : fimage * @res unit :=
  match q with
  | Whole => activate m None
  | Box b => activate m (Some b)
  | Square xc yc rad =>
      match extractArray m None with
      | (m', Ok (_, a)) =>
          let n1 := Z.of_nat (nx a) in let n2 := Z.of_nat (ny a) in
          if (xc <? 0)%Z || (xc >=? n1)%Z || (yc <? 0)%Z || (yc >=? n2)%Z then (m', Raise IndexError)
          else activate m' (Some (if (xc - rad >? 0)%Z then (xc - rad)%Z else 0%Z, if (xc + rad <=? n1)%Z then (xc + rad)%Z else n1,
                                  if (yc - rad >? 0)%Z then (yc - rad)%Z else 0%Z, if (yc + rad <=? n2)%Z then (yc + rad)%Z else n2))
      | (m', Raise e) => (m', Raise e)
      | (m', OutOfFuel) => (m', OutOfFuel)
      end
  | Other => (m, Raise ValueError)
  end.
(** hdu 1183-1188 *)
Definition setHdu (m : fimage) (z : Z) : fimage * @res unit := activate (FImage (hdus m) (chdu m) z (rng m) (view m) (own m) (scal m) (fdict m) (zpt m) (pixscale m)) (rng m).
(** setScaling 327-350; None: no change for a linear scaling *)
Definition setScaling (m : fimage) (q : option kind) : fimage * @res unit :=
  match q, scal m with
  | None, KLinear => (m, Ok tt)
  | _, _ => activate (FImage (hdus m) (chdu m) (newhdu m) (rng m) (view m) (own m) (match q with Some k => k | None => KLinear end) false (zpt m) (pixscale m)) (rng m)
  end.
(** the data attribute 794-800 *)
Definition part (f : list hdu) (k : nat) (r : option box) : arr :=
  match nth_error f k with
  | Some h => match pixels h with Some a => match r with None => transpose a | Some b => sub (transpose a) b end | None => Arr 0 0 (fun _ _ => 0) end
  | None => Arr 0 0 (fun _ _ => 0)
  end.
Definition data (m : fimage) : arr := match view m with Some (k, r) => part (hdus m) k r | None => own m end.
Fixpoint set_hdu (f : list hdu) (k : nat) (a : arr) : list hdu :=
  match f, k with
  | [], _ => []
  | h :: r, O => HDU (Some a) (hkeys h) :: r
  | h :: r, S k => h :: set_hdu r k a
  end.
Definition with_hdus (m : fimage) (f : list hdu) : fimage := FImage f (chdu m) (newhdu m) (rng m) (view m) (own m) (scal m) (fdict m) (zpt m) (pixscale m).
(** assigning to the elements of data: into the HDU through the view, or into the separate array *)
Definition edit (m : fimage) (g : nat -> nat -> R -> R) : fimage :=
  let d := Arr (nx (data m)) (ny (data m)) (fun i j => g i j (px (data m) i j)) in
  match view m with
  | Some (k, r) =>
      match nth_error (hdus m) k with
      | Some h => match pixels h with
                  | Some a => with_hdus m (set_hdu (hdus m) k (transpose (match r with None => d | Some b => put (transpose a) b d end)))
                  | None => m
                  end
      | None => m
      end
  | None => FImage (hdus m) (chdu m) (newhdu m) (rng m) None d (scal m) (fdict m) (zpt m) (pixscale m)
  end.
(** _applyArray 1124-1135: a range is assigned rows first, the data are not *)
Definition applyArray (m : fimage) (d : arr) : fimage * @res unit :=
  match chdu m with
  | None => (m, Raise TypeError)
  | Some z =>
      match position (List.length (hdus m)) z with
      | None => (m, Raise IndexError)
      | Some k =>
          match nth_error (hdus m) k with
          | None => (m, Raise IndexError)
          | Some h =>
              match rng m with
              | None => (with_hdus m (set_hdu (hdus m) k (transpose d)), Ok tt)
              | Some (xl, xu, yl, yu) =>
                  match pixels h with
                  | None => (m, Raise ValueError)
                  | Some a =>
                      if (xl <? 0)%Z || (xu >? Z.of_nat (ny a))%Z || (yl <? 0)%Z || (yu >? Z.of_nat (nx a))%Z then (m, Raise IndexError)
                      else let t := sub a (yl, yu, xl, xu) in
                           if (nx d =? nx t)%nat && (ny d =? ny t)%nat then (with_hdus m (set_hdu (hdus m) k (put a (yl, yu, xl, xu) d)), Ok tt) else (m, Raise ValueError)
                  end
              end
          end
      end
  end.
(** applyChanges 307-317: the statistics are cleared at the end, which fails if _fstatd is None *)
Definition applyChanges (m : fimage) : fimage * @res unit :=
  match applyArray m (amap (inv_k (scal m)) (data m)) with
  | (m', Ok _) => (m', if fdict m' then Ok tt else Raise AttributeError)
  | (m', r) => (m', r)
  end.
(** save 1064-1074 with _updateToHeader 1153-1167, which changes a copy of the header *)
Definition save (m : fimage) : @res (list hdu) :=
  match chdu m with
  | None => Raise TypeError
  | Some z =>
      match position (List.length (hdus m)) z with
      | None => Raise IndexError
      | Some k =>
          match nth_error (hdus m) k with
          | None => Raise IndexError
          | Some h => match PIXSCALE (hkeys h), PIXSCAL1 (hkeys h), pixscale m with
                      | Some _, _, None | None, Some _, None => Raise TypeError
                      | _, _, _ => Ok (hdus m)
                      end
          end
      end
  end.
(** zeropoint and pixelscale 770-792 *)
Definition setZpt (m : fimage) (v : R) : fimage := FImage (hdus m) (chdu m) (newhdu m) (rng m) (view m) (own m) (scal m) (fdict m) (Some v) (pixscale m).
Definition setPixscale (m : fimage) (v : R * R) : fimage := FImage (hdus m) (chdu m) (newhdu m) (rng m) (view m) (own m) (scal m) (fdict m) (zpt m) (Some v).
(** __init__ 970-1062 *)
Inductive source := SFile (name : string) (f : list hdu) | SArray (a : arr) | SArrays (l : list arr) | SPair (a : arr) | SPairs (hdrs : nat) (l : list arr).
Definition ends_with (s e : string) : bool := String.eqb (substring (String.length s - String.length e) (String.length e) s) e.
Definition IOErr : exn := UserExn 1.
Definition opened (s : source) : @res (list hdu) :=
  match s with
  | SFile name f => if ends_with (SpecModel.lower name) "fit" || ends_with (SpecModel.lower name) "fits" then Ok f else Raise IOErr
  | SArray a => Ok [HDU (Some (transpose a)) (Keys None None None None None)]
  | SArrays [] => Raise IndexError
  | SArrays _ => Raise AttributeError                                                  (* 1024-1025: self.fitsfile does not exist yet *)
  | SPair _ => Raise AttributeError                                                    (* 1049-1050 *)
  | SPairs n l => if (n =? List.length l)%nat then (match l with [] => Raise IndexError | _ => Raise AttributeError end) else Raise ValueError
  end.
Definition newFits (s : source) (scaling : option kind) (hdu : Z) : @res fimage :=
  match opened s with
  | Ok f =>
      let m := FImage f None hdu None None (Arr 0 0 (fun _ _ => 0)) KLinear true None None in
      let r := match scaling with None => activate m None | Some k => setScaling m (Some k) end in
      match r with (m', Ok _) => Ok m' | (_, Raise e) => Raise e | (_, OutOfFuel) => OutOfFuel end
  | Raise e => Raise e
  | OutOfFuel => OutOfFuel
  end.
(** a history *)
Inductive op := OSelect (q : request) | OHdu (z : Z) | OScaling (k : option kind) | OEdit (g : nat -> nat -> R -> R) | OApply.
Definition step (m : fimage) (o : op) : fimage :=
  match o with
  | OSelect q => fst (activateRange m q) | OHdu z => fst (setHdu m z) | OScaling k => fst (setScaling m k) | OEdit g => edit m g | OApply => fst (applyChanges m)
  end.
Definition run (m : fimage) (l : list op) : fimage := fold_left step l m.
