(** * LoadModel: reading spectra from FITS files, astropysics/utils/io.py 1346-1556, with the constructor of Spectrum, spec.py 305-360

    A FITS file is a list of HDUs with header values and data; pyfits itself is not part of the code base.  Numbers are reals: infinite and undefined errors are not represented. *)
From Coq Require Import List Bool Reals ZArith String Arith.
From Verif Require Import PyBase SpecModel SmModel.
Import ListNotations.
Open Scope R_scope.
Definition IOError : exn := UserExn 1.

(** an array with its shape *)
Record arr := Arr { shape : list nat; vals : list R }.
Definition size (a : arr) : nat := List.length (vals a).
Definition shape_eqb (a b : list nat) : bool := if list_eq_dec Nat.eq_dec a b then true else false.

(** ** the constructor (315-352, unit 'wl'): rows (x, (flux, err)) in the order of x *)
Inductive errarg := NoErr | ByErr (a : arr) | ByIvar (a : arr).
Definition construct (x flux : arr) (e : errarg) : @res (list (R * (R * R))) :=
  if negb (shape_eqb (shape x) (shape flux)) then Raise ValueError else
  let finish := fun err => Ok (sort_x (combine (vals x) (combine (vals flux) err))) in
  match e with
  | NoErr => finish (map (fun _ => 0) (vals flux))
  | ByIvar a => if negb (shape_eqb (shape a) (shape flux)) then Raise ValueError else finish (map (fun v => / sqrt v) (vals a))
  | ByErr a => if negb (shape_eqb (shape a) (shape flux)) then Raise ValueError else finish (map (fun v => if Rlt_dec v 0 then -1 * v else v) (vals a))
  end.

(** ** load_wcs_spectrum 1348-1429 *)
Record hdu := Hdu { crval1 : option R; cd1_1 : option R; cdelt1 : option R; ctype1 : option string; data : option arr }.
Definition has {A} (o : option A) : bool := match o with Some _ => true | None => false end.
Fixpoint locate (i : nat) (f : list hdu) : option nat := match f with [] => None | h :: r => if has (crval1 h) && (has (cd1_1 h) || has (cdelt1 h)) then Some i else locate (S i) r end.
Definition bind {A B} (r : @res A) (k : A -> @res B) : @res B := match r with Ok a => k a | Raise e => Raise e | OutOfFuel => OutOfFuel end.
Definition get {A} (l : list A) (i : Z) : @res A := match py_get l i with Some a => Ok a | None => Raise IndexError end.
Definition recip (o : option arr) : @res (option arr) := match o with None => Raise TypeError | Some a => Ok (Some (Arr (shape a) (map (fun v => 1 / v) (vals a)))) end.
Definition load_wcs (f : list hdu) (fluxext errext hdrext : option Z) (errtype : string) : @res (list (R * (R * R))) :=
  bind (match fluxext with None => match locate 0 f with Some i => Ok (Z.of_nat i, Some (Z.of_nat i)) | None => Raise IOError end | Some i => Ok (i, hdrext) end) (fun '(fluxext, hdrext) =>
  bind (get f (match hdrext with None => fluxext | Some j => j end)) (fun hdr =>
  if match ctype1 hdr with None => false | Some t => negb (String.eqb t "LINEAR") end then Raise ValueError else
  match crval1 hdr with
  | None => Raise ValueError
  | Some crval =>
      bind (match cd1_1 hdr with Some d => Ok d | None => match cdelt1 hdr with Some d => Ok d | None => Raise ValueError end end) (fun dispersion =>
      bind (get f fluxext) (fun fh =>
      match data fh with
      | None => Raise AttributeError
      | Some flux =>
          let flux := match shape flux with [1%nat; n] => Arr [n] (vals flux) | _ => flux end in
          let x := Arr [size flux] (map (fun i => INR i * dispersion + crval) (seq 0 (size flux))) in
          bind (match errext with None => Ok None | Some k => bind (get f k) (fun h => Ok (data h)) end) (fun err =>
          if String.eqb errtype "err" then construct x flux (match err with None => NoErr | Some a => ByErr a end)
          else if String.eqb errtype "ierr" then bind (recip err) (fun err => construct x flux (match err with None => NoErr | Some a => ByErr a end))
          else if String.eqb errtype "var" then bind (recip err) (fun err => construct x flux (match err with None => NoErr | Some a => ByIvar a end))
          else if String.eqb errtype "ivar" then construct x flux (match err with None => NoErr | Some a => ByIvar a end)
          else Raise ValueError)
      end))
  end)).

(** ** load_deimos_spectrum 1432-1509 (plot=False) *)
(** the first row of LAMBDA, SPEC, IVAR and SKYSPEC *)
Record side := Side { lam : list R; spc : list R; ivr : list R; sky : list R }.
Definition ext := (option string * option side)%type.
(** 1464: the dictionary of the names of all extensions after the first; a later one replaces an earlier one of the same name *)
Fixpoint ext_dict (i : nat) (l : list ext) : @res (list (string * nat)) :=
  match l with [] => Ok [] | (None, _) :: _ => Raise KeyError | (Some n, _) :: r => bind (ext_dict (S i) r) (fun d => Ok ((n, i) :: d)) end.
Definition last_of (n : string) (d : list (string * nat)) : option nat := fold_left (fun a p => if String.eqb (fst p) n then Some (snd p) else a) d None.
(** pyfits: f[name] is the first with that name *)
Fixpoint by_name (n : string) (f : list ext) : option (option side) := match f with [] => None | (m, s) :: r => match m with Some m => if String.eqb m n then Some s else by_name n r | None => by_name n r end end.
Definition table (o : option (option side)) : @res side := match o with Some (Some s) => Ok s | Some None => Raise AttributeError | None => Raise KeyError end.
Definition line (l : list R) : arr := Arr [List.length l] l.
Record deimos := Deimos { rows : list (R * (R * R)); d_sky : list R; bdata : option side; rdata : option side }.
Definition NameErr : exn := NameError.
(** 'spec1d' in fn and 'fits' in fn *)
Fixpoint contains (needle hay : string) : bool := String.prefix needle hay || match hay with EmptyString => false | String _ r => contains needle r end.
(** [pfcasesen] 1446-1455: whether this release of pyfits keeps the case of names *)
Definition load_deimos (pfcasesen : bool) (fn : string) (f : list ext) (extraction : string) (smoothing : option R) (retdata : bool) : @res deimos :=
  if negb (contains "spec1d" fn) || negb (contains "fits" fn) then Raise ValueError else
  bind (if String.eqb extraction "horne" then Ok (if pfcasesen then "Horne" else "HORNE")%string else if String.eqb extraction "boxcar" then Ok (if pfcasesen then "Bxspf" else "BXSPF")%string else Raise ValueError) (fun extname =>
  bind (ext_dict 1 (tl f)) (fun extd =>
  let nb := (extname ++ "-B")%string in let nr := (extname ++ "-R")%string in
  bind (match last_of nb extd, last_of nr extd with
        | Some bi, Some ri => bind (table (option_map snd (nth_error f bi))) (fun bd => bind (table (option_map snd (nth_error f ri))) (fun rd =>
            Ok (Side (lam bd ++ lam rd) (spc bd ++ spc rd) (ivr bd ++ ivr rd) (sky bd ++ sky rd), Some bd, Some rd)))
        | Some _, None => bind (table (by_name nb f)) (fun d => Ok (d, None, None))
        | None, Some _ => bind (table (by_name nr f)) (fun d => Ok (d, None, None))
        | None, None => Raise KeyError
        end) (fun '(d, bd, rd) =>
  bind (construct (line (lam d)) (line (spc d)) (ByIvar (line (ivr d)))) (fun l =>
  let s := Spec (map fst l) (map (fun p => fst (snd p)) l) (map (fun p => snd (snd p)) l) UAng None None 0 in
  bind (match smoothing with
        | None => Ok s
        | Some w => if Req_EM_T w 0 then Ok s else
                    let '(s', r) := if Rlt_dec w 0 then smooth s (w * -1) (Some "boxcar"%string) true else smooth s w (Some "gaussian"%string) true in bind r (fun _ => Ok s')
        end) (fun s =>
  if retdata && negb (has bd) then Raise NameErr
  else Ok (Deimos (combine (sx s) (combine (sflux s) (serr s))) (sky d) bd rd)))))).

(** ** load_all_deimos_spectra 1511-1556: names in order, the results of the loads that did not raise, positions of those that did *)
Fixpoint load_each {A} (load : string -> @res A) (i : nat) (fns : list string) : list A * list nat :=
  match fns with
  | [] => ([], [])
  | fn :: r => let '(specs, rem) := load_each load (S i) r in match load fn with Ok s => (s :: specs, rem) | _ => (specs, i :: rem) end
  end.
Definition load_all {A} (load : string -> @res A) (fns : list string) : list (string * A) :=
  let '(specs, fnrem) := load_each load 0 fns in
  let fns := fold_left (fun l i => remove_at i l) (rev fnrem) fns in
  combine fns specs.
