(** * DustModel: get_SFD_dust (astropysics/obstools.py 2270-2411).
    Floats are reals.  Files are an argument (open_: name to the data of the first HDU); scipy.ndimage.map_coordinates
    is an argument, applied point by point.  Coordinates are numbers or one-dimensional sequences of numbers.  Left out:
    names with a per cent sign other than one %s, coordinate arrays of more dimensions, an interpolate argument that is
    neither a bool nor an int, the two printed warnings. *)
From Coq Require Import Reals List Bool String Ascii ZArith.
From Verif Require Import PyBase.
Import ListNotations.
Open Scope R_scope.

Record dmap := DMap { rows : Z; cols : Z; px : Z -> Z -> R }.
Inductive coord := Num (x : R) | Arr (l : list R).
Inductive iarg := IBool (b : bool) | IInt (n : Z).
Inductive darg := DName (s : string) | DOther.
(** str.lower on ASCII *)
Definition low_char (a : ascii) : ascii := let n := nat_of_ascii a in if (Nat.leb 65 n && Nat.leb n 90)%bool then ascii_of_nat (n + 32) else a.
Fixpoint low (s : string) : string := match s with EmptyString => EmptyString | String a r => String (low_char a) (low r) end.
(** 2304-2318 *)
Definition dustmapfn (s : string) : string :=
  (let d := low s in
   if (d =? "ebv") || (d =? "eb-v") || (d =? "e(b-v)") then "SFD_dust_4096_%s.fits"
   else if d =? "i100" then "SFD_i100_4096_%s.fits" else if d =? "x" then "SFD_xmap_%s.fits" else if d =? "t" then "SFD_temp_%s.fits" else if d =? "mask" then "SFD_mask_4096_%s.fits" else s)%string.
(** '%s' in fn, and fn % pole *)
Fixpoint fmt (s pole : string) : option string :=
  match s with
  | EmptyString => None
  | String a r => if (a =? "%")%char then match r with String b q => if (b =? "s")%char then Some (pole ++ q)%string else option_map (String a) (fmt r pole) | EmptyString => None end else option_map (String a) (fmt r pole)
  end.
(** the last part between underscores of the part before the first point, in lower case: 2340 *)
Fixpoint before_dot (s : string) : string := match s with EmptyString => EmptyString | String a r => if (a =? ".")%char then EmptyString else String a (before_dot r) end.
Fixpoint after_underscore (acc s : string) : string := match s with EmptyString => acc | String a r => if (a =? "_")%char then after_underscore EmptyString r else after_underscore (acc ++ String a EmptyString)%string r end.
Definition polename (fn : string) : string := low (after_underscore EmptyString (before_dot fn)).
Definition radians (l : list R) : list R := map (fun x => x * PI / 180) l.
Definition as_list (c : coord) : list R := match c with Num x => [x] | Arr l => l end.
Definition is_num (c : coord) : bool := match c with Num _ => true | Arr _ => false end.
Definition geb0 (x : R) : bool := if Rle_dec 0 x then true else false.
(** boolean indexing l[m], and retval[m] = val *)
Fixpoint sel {A} (m : list bool) (l : list A) : list A := match m, l with b :: m, x :: l => if (b : bool) then x :: sel m l else sel m l | _, _ => [] end.
Fixpoint put (m : list bool) (v acc : list R) {struct m} : list R :=
  match m, acc with
  | b :: m, a :: acc => if (b : bool) then match v with x :: v => x :: put m v acc | [] => a :: acc end else a :: put m v acc
  | _, _ => acc
  end.
(** numpy.round: to the nearest integer, halves to the even one *)
Definition rne (x : R) : Z := let k := Int_part (x + 1 / 2) in if Req_EM_T (IZR k) (x + 1 / 2) then (if Z.even k then k else (k - 1)%Z) else k.
(** mapd[i,j]: negative indices count from the end *)
Definition index (n i : Z) : @res Z := if ((0 <=? i) && (i <? n))%Z then Ok i else if ((- n <=? i) && (i <? 0))%Z then Ok (n + i)%Z else Raise IndexError.
Definition at_ (d : dmap) (i j : Z) : @res R :=
  match index (rows d) i with Ok i => match index (cols d) j with Ok j => Ok (px d i j) | Raise x => Raise x | OutOfFuel => OutOfFuel end | Raise x => Raise x | OutOfFuel => OutOfFuel end.
(** 2375-2379, after x,y = y,x *)
Definition pixel (n : R) (npix : Z) (l b : R) : R * R :=
  let x := IZR npix / 2 * cos l * sqrt (1 - n * sin b) + IZR npix / 2 - 0.5 in
  let y := - IZR npix / 2 * n * sin l * sqrt (1 - n * sin b) + IZR npix / 2 - 0.5 in
  (y, x).
Fixpoint mapr {A B} (g : A -> @res B) (l : list A) : @res (list B) :=
  match l with [] => Ok [] | a :: r => match g a with Ok b => match mapr g r with Ok t => Ok (b :: t) | Raise x => Raise x | OutOfFuel => OutOfFuel end | Raise x => Raise x | OutOfFuel => OutOfFuel end end.
Section Dust.
Variable open_ : string -> @res dmap.
Variable map_coordinates : dmap -> option Z -> R -> R -> R.
(** one element of the arrays of 2381-2391 *)
Definition value (ip : iarg) (n : R) (d : dmap) (l b : R) : @res R :=
  let '(x, y) := pixel n (rows d) l b in
  match ip with
  | IBool true => Ok (map_coordinates d None x y)
  | IInt k => if (k =? 0)%Z then at_ d (rne x) (rne y) else Ok (map_coordinates d (Some k) x y)
  | IBool false => at_ d (rne x) (rne y)
  end.
Definition values (ip : iarg) (n : R) (d : dmap) (l b : list R) (m : list bool) : @res (list R) := mapr (fun p => value ip n d (fst p) (snd p)) (combine (sel m l) (sel m b)).
Definition load (fn : string) : @res dmap := match open_ fn with Ok d => if (rows d =? cols d)%Z then Ok d else Raise AssertionError | Raise x => Raise x | OutOfFuel => OutOfFuel end.
Inductive result := One (x : R) | Many (l : list R).
(** the whole function; [junk] is what the uninitialised ndarray of 2406 holds *)
Definition get_SFD_dust (long lat : coord) (dustmap : darg) (ip : iarg) (junk : R) : @res result :=
  match dustmap with
  | DOther => Raise ValueError
  | DName s =>
    let fn := dustmapfn s in
    let l := radians (as_list long) in
    let b := radians (as_list lat) in
    if negb (List.length l =? List.length b)%nat then Raise ValueError
    else match fmt fn "ngp", fmt fn "sgp" with
    | Some fn1, Some fn2 =>
        let nmask := map geb0 b in
        let smask := map negb nmask in
        match load fn1 with
        | Ok d1 =>
            match load fn2 with
            | Ok d2 =>
                match values ip 1 d1 l b nmask with
                | Ok v1 =>
                    match values ip (-1) d2 l b smask with
                    | Ok v2 =>
                        if is_num long || is_num lat then match v1, v2 with x :: _, _ => Ok (One x) | [], x :: _ => Ok (One x) | [], [] => Raise AssertionError end
                        else Ok (Many (put smask v2 (put nmask v1 (map (fun _ => junk) l))))
                    | Raise x => Raise x | OutOfFuel => OutOfFuel end
                | Raise x => Raise x | OutOfFuel => OutOfFuel end
            | Raise x => Raise x | OutOfFuel => OutOfFuel end
        | Raise x => Raise x | OutOfFuel => OutOfFuel end
    | _, _ =>
        (* a single file: ns is never bound *)
        match load fn with
        | Ok _ => if ((polename fn =? "ngp") || (polename fn =? "sgp"))%string then Raise NameError else Raise ValueError
        | Raise x => Raise x | OutOfFuel => OutOfFuel end
    end
  end.
End Dust.
