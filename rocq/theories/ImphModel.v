(** * ImphModel: photometry of images (astropysics/phot.py 1734-1822 PhotometryBase, 1922-1937 GaussianPointSpreadFunction,
    2137-2338 IsophotalEllipse, 2354-2403 ModelPhotometry).  Floats are reals, nan is None.  Images, locations and PSFs are
    numbered objects; an image may carry a zero point and a band.  The measurement of a subclass (_compute), the total flux
    of a pymodelfit model (integrateCircular(np.inf)) and scipy's leastsq are arguments.  Left out: plotting, simulate,
    getDiff, the fits of PSFs, attributes of a PhotometryBase other than the ones below. *)
From Coq Require Import Reals List Bool String Ascii.
From Verif Require Import PyBase.
Import ListNotations.
Open Scope R_scope.

(** ** PhotometryBase 1734-1822 *)
Record image := Image { im_id : nat; im_zpt : option R; im_band : option string }.
Record phot := Phot { p_image : option image; p_loc : option nat; p_psf : option nat; p_band : option string; p_zpt : option R; p_flux : option R }.
(** the class attributes 1750-1754; _totalflux does not exist before the first measurement *)
Definition newPhot : phot := Phot None None None None None None.
(** what is assigned to an attribute; totalflux and totalmag are properties without setters *)
Inductive assign := AImage (i : option image) | ALoc (l : option nat) | APsf (p : option nat) | ABand (b : option string) | AZero (z : option R) | ATotal.
Definition setattr (s : phot) (a : assign) : phot * @res unit :=
  match a with
  | AImage i => (Phot i (p_loc s) (p_psf s) (p_band s) (p_zpt s) (p_flux s), Ok tt)
  | ALoc l => (Phot (p_image s) l (p_psf s) (p_band s) (p_zpt s) (p_flux s), Ok tt)
  | APsf p => (Phot (p_image s) (p_loc s) p (p_band s) (p_zpt s) (p_flux s), Ok tt)
  | ABand b => (Phot (p_image s) (p_loc s) (p_psf s) b (p_zpt s) (p_flux s), Ok tt)
  | AZero z => (Phot (p_image s) (p_loc s) (p_psf s) (p_band s) z (p_flux s), Ok tt)
  | ATotal => (s, Raise AttributeError)
  end.
(** for k,v in kwargs.iteritems(): setattr(self,k,v) 1777-1778 *)
Fixpoint setattrs (s : phot) (l : list assign) : phot * @res unit :=
  match l with [] => (s, Ok tt) | a :: r => match setattr s a with (s', Ok _) => setattrs s' r | bad => bad end end.
(** computePhotometry 1770-1783; [comp] returns the total flux it stores and its result *)
Definition computePhotometry (comp : image -> option nat -> option nat -> @res (R * R)) (s : phot) (kwargs : list assign) : phot * @res R :=
  match setattrs s kwargs with
  | (s', Ok _) =>
      match p_image s' with
      | None => (s', Raise ValueError)
      | Some i => match comp i (p_loc s') (p_psf s') with
                  | Ok (f, r) => (Phot (p_image s') (p_loc s') (p_psf s') (p_band s') (p_zpt s') (Some f), Ok r)
                  | Raise e => (s', Raise e)
                  | OutOfFuel => (s', OutOfFuel)
                  end
      end
  | (s', Raise e) => (s', Raise e)
  | (s', OutOfFuel) => (s', OutOfFuel)
  end.
(** _getZeropoint 1795-1802 *)
Definition zeropoint (s : phot) : R :=
  match p_zpt s with
  | None => match p_image s with Some i => match im_zpt i with Some z => z | None => 0 end | None => 0 end
  | Some z => z
  end.
(** _getBand 1807-1810 *)
Definition band (s : phot) : option string :=
  match p_band s, p_image s with
  | None, Some i => match im_band i with Some b => Some b | None => None end
  | b, _ => b
  end.
(** PogsonMagnitude 78-88; _fluxToMag and _magToFlux 1785-1792; totalflux and totalmag 1815-1821 *)
Definition poga : R := - (5 / 2) / ln 10.
Definition flux_to_mag (f : R) : R := poga * ln f.
Definition mag_to_flux (m : R) : R := exp (m / poga).
Definition fluxToMag (s : phot) (f : R) : R := flux_to_mag f + zeropoint s.
Definition magToFlux (s : phot) (m : R) : R := mag_to_flux (m - zeropoint s).
Definition totalflux (s : phot) : @res R := match p_flux s with Some f => Ok f | None => Raise AttributeError end.
Definition totalmag (s : phot) : @res R := match p_flux s with Some f => Ok (magToFlux s f) | None => Raise AttributeError end.

(** ** GaussianPointSpreadFunction 1922-1933 *)
Definition fwhmtosig : R := sqrt (8 * ln 2).
Definition getFwhm (sigma : R) : R := fwhmtosig * sigma.
Definition setFwhm (fwhm : R) : R := fwhm / fwhmtosig.

(** ** ModelPhotometry 2354-2403 *)
Inductive normp := NNone | NStr (s : string) | NSeq (l : list string).
Record mphot := MPhot { m_params : list (string * R); m_zpt : R; m_norm : normp }.
Fixpoint getp (l : list (string * R)) (k : string) : option R := match l with [] => None | (k', v) :: r => if String.eqb k' k then Some v else getp r k end.
Fixpoint setp (l : list (string * R)) (k : string) (x : R) : list (string * R) := match l with [] => [] | (k', v) :: r => if String.eqb k' k then (k', x) :: r else (k', v) :: setp r k x end.
(** iterating over normparam (a string gives its characters, since the tuple made of it is not used) 2388 *)
Definition names (n : normp) : list string := match n with NNone => [] | NStr s => map (fun c => String c EmptyString) (list_ascii_of_string s) | NSeq l => l end.
(** _setTotalflux 2381-2397; a current flux of zero is a division by zero *)
Definition setTotalflux (F : list (string * R) -> R) (s : mphot) (val : R) : mphot * @res unit :=
  match m_norm s with
  | NNone => (s, Raise NotImplementedError)
  | n => match filter (fun p => match getp (m_params s) p with Some _ => true | None => false end) (names n) with
         | [p] => match getp (m_params s) p with
                  | Some v => if Req_EM_T (F (m_params s)) 0 then (s, Raise ZeroDivisionError)
                              else (MPhot (setp (m_params s) p (v * val / F (m_params s))) (m_zpt s) (m_norm s), Ok tt)
                  | None => (s, Raise ValueError)
                  end
         | _ => (s, Raise ValueError)
         end
  end.
(** _getTotalflux 2379, _getTotalmag and _setTotalmag 2399-2402 *)
Definition getTotalflux (F : list (string * R) -> R) (s : mphot) : R := F (m_params s).
Definition getTotalmag (F : list (string * R) -> R) (s : mphot) : R := m_zpt s - 5 / 2 * (ln (getTotalflux F s) / ln 10).
Definition setTotalmag (F : list (string * R) -> R) (s : mphot) (val : R) : mphot * @res unit := setTotalflux F s (exp (ln 10 * ((val - m_zpt s) / - (5 / 2)))).

(** ** IsophotalEllipse 2137-2338 *)
Record ellipse := Ell { ea : R; eb : R; ephi : R; ex : R; ey : R }.
(** an image with its two lengths and its mean *)
Record pic := Pic { pid : nat; pnx : R; pny : R; pmean : R }.
Record iso := Iso { i_im : pic; i_level : option R; i_keep : R; i_fitted : bool; i_ell : ellipse }.
(** __init__ 2142-2157: a level that is given is not stored *)
Definition newIso (p : pic) (isolevel : option R) : iso := Iso p (match isolevel with None => Some (pmean p) | Some _ => None end) (1 / 100) false (Ell 1 1 0 (pnx p / 2) (pny p / 2)).
(** the setters 2161-2193; fixcenter is a second name of isolevel (2187) *)
Inductive isoset := SImdata (p : pic) | SLevel (v : R) | SFixcenter (v : R) | SKeep (v : R).
Definition iso_set (s : iso) (o : isoset) : iso :=
  match o with
  | SImdata p => Iso p (i_level s) (i_keep s) false (i_ell s)
  | SLevel v => Iso (i_im s) (Some v) (i_keep s) false (i_ell s)
  | SFixcenter v => Iso (i_im s) (Some v) (i_keep s) false (i_ell s)
  | SKeep v => Iso (i_im s) (i_level s) v false (i_ell s)
  end.
(** the exchange of the axes 2266-2268 *)
Definition order_axes (l : ellipse) : ellipse := if Rlt_dec (ea l) (eb l) then Ell (eb l) (ea l) (ephi l + PI / 2) (ex l) (ey l) else l.
Definition npfloor (x : R) : R := IZR (Int_part x).
(** _fitEllipse 2221-2276 with the centre free; [lsq im level keeppix start] is the solution of leastsq.  The reads of
    self.phi while _fitted is False fit again (2332-2338); phi has no setter.  OutOfFuel: Python's recursion limit. *)
Fixpoint fitEllipse (lsq : pic -> R -> R -> ellipse -> ellipse) (fuel : nat) (s : iso) : iso * @res unit :=
  match fuel with
  | O => (s, OutOfFuel)
  | S n =>
      match i_level s with
      | None => (s, Raise AttributeError)
      | Some lv =>
          let l := order_axes (lsq (i_im s) lv (i_keep s) (i_ell s)) in
          let s1 := Iso (i_im s) (i_level s) (i_keep s) (i_fitted s) l in
          if Rle_dec (2 * PI) (ephi l) then
            match (if i_fitted s1 then (s1, Ok tt) else fitEllipse lsq n s1) with (s2, Ok _) => (s2, Raise AttributeError) | bad => bad end
          else if Rlt_dec (ephi l) 0 then
            match (if i_fitted s1 then (s1, Ok tt) else fitEllipse lsq n s1) with
            | (s2, Ok _) => let l2 := i_ell s2 in
                (Iso (i_im s2) (i_level s2) (i_keep s2) true (Ell (ea l2) (eb l2) (ephi l + 2 * PI * npfloor (- ephi l2 / 2 / PI)) (ex l2) (ey l2)), Ok tt)
            | bad => bad
            end
          else (Iso (i_im s) (i_level s) (i_keep s) true l, Ok tt)
      end
  end.
(** the properties 2292-2338: fit first if needed *)
Definition read {A} (lsq : pic -> R -> R -> ellipse -> ellipse) (fuel : nat) (s : iso) (f : ellipse -> A) : iso * @res A :=
  match (if i_fitted s then (s, Ok tt) else fitEllipse lsq fuel s) with
  | (s', Ok _) => (s', Ok (f (i_ell s')))
  | (s', Raise e) => (s', Raise e)
  | (s', OutOfFuel) => (s', OutOfFuel)
  end.
(** major, minor, phi, axisratio, e *)
Definition axisratio (l : ellipse) : R := ea l / eb l.
Definition eccentricity (l : ellipse) : option R := if Rle_dec (axisratio l * axisratio l) 1 then Some (sqrt (1 - axisratio l * axisratio l)) else None.
(** np.linspace(0,2*pi,n) *)
Definition angles (n : nat) : list R := match n with O => [] | S O => [0] | S (S m) => map (fun i => INR i * (2 * PI / INR (S m))) (seq 0 n) end.
(** polar, _th2r, cartesian 2199-2219 *)
Definition th2r (l : ellipse) (th : R) : R := ea l * eb l * / sqrt (ea l * sin (th - ephi l) * (ea l * sin (th - ephi l)) + eb l * cos (th - ephi l) * (eb l * cos (th - ephi l))).
Definition polar (s : iso) (n : nat) : list (R * R) := map (fun th => (th2r (i_ell s) th, th)) (angles n).
Definition cartesian (s : iso) (n : nat) : list (R * R) := map (fun q => (fst q * cos (snd q) + ex (i_ell s), fst q * sin (snd q) + ey (i_ell s))) (polar s n).
