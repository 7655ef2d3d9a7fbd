(** * CmdModel: CMDAnalyzer of astropysics/phot.py 1146-1677

    Band names are numbers; magnitudes are reals, [None] is NaN.  A B x N array is the list of its B rows, all of length N.
    Names given as strings are without the blanks that the code strips. *)
From Coq Require Import List Bool ZArith Reals Lra Lia.
From Verif Require Import PyBase.
Import ListNotations.
Open Scope R_scope.

Definition name := nat.
Definition row := list R.

(** numpy: elementwise difference and sum of two rows of equal length *)
Definition rmap2 (f : R -> R -> R) (a b : row) : row := map (fun p => f (fst p) (snd p)) (combine a b).
Definition rsub := rmap2 Rminus.
Definition radd := rmap2 Rplus.

(** ** _dataAndBandsToDicts 1155-1219.  An entry of [bandsin]: a string without '-' (looked up in the registry of bands), a string with '-' (the names between them) or a Band object with its name *)
Inductive band_in := BName (b : name) | BColor (parts : list name) | BObj (b : name).
(** the three dictionaries bd, datad and maskd have the same keys: one dictionary of row and mask.  A new value replaces the old one *)
Definition dict := list (name * (row * bool)).
Fixpoint lookup {A} (b : name) (d : list (name * A)) : option A := match d with [] => None | (k, v) :: r => if Nat.eqb k b then Some v else lookup b r end.
Fixpoint store {A} (b : name) (v : A) (d : list (name * A)) : list (name * A) := match d with [] => [(b, v)] | (k, w) :: r => if Nat.eqb k b then (b, v) :: r else (k, w) :: store b v r end.
Section Registry.
Variable known : name -> bool.
(** 1164-1181: every name must be in the registry, whatever comes later *)
Definition check_entry (e : band_in) : @res unit := match e with BName b => if known b then Ok tt else Raise KeyError | _ => Ok tt end.
Fixpoint check_all (l : list band_in) : @res unit := match l with [] => Ok tt | e :: l => match check_entry e with Ok _ => check_all l | x => x end end.
(** 1183-1195: the bands given directly *)
Definition direct_step (d : dict) (e : band_in * row) : dict := match e with (BName b, r) | (BObj b, r) => store b (r, true) d | (BColor _, _) => d end.
(** 1197-1217: the colors, in order *)
Definition color_step (d : dict) (e : band_in * row) : @res dict :=
  match e with
  | (BColor [b1; b2], r) =>
      match lookup b1 d, lookup b2 d with
      | Some (r1, _), None => if known b2 then Ok (store b2 (rsub r1 r, true) d) else Raise KeyError
      | None, Some (r2, _) => if known b1 then Ok (store b1 (radd r r2, true) d) else Raise KeyError
      | Some _, Some _ => Ok d
      | None, None => if known b1 && known b2 then Ok (store b2 (map (fun x => -1 * x) r, true) (store b1 (map (fun _ => 0) r, false) d)) else Raise KeyError
      end
  | (BColor _, _) => Raise ValueError
  | _ => Ok d
  end.
Fixpoint colors (d : dict) (l : list (band_in * row)) : @res dict := match l with [] => Ok d | e :: l => match color_step d e with Ok d' => colors d' l | Raise x => Raise x | OutOfFuel => OutOfFuel end end.
Definition to_dicts (bandsin : list band_in) (arr : list row) : @res dict :=
  if Nat.eqb (length bandsin) (length arr) then
    match check_all bandsin with Ok _ => colors (fold_left direct_step (combine bandsin arr) []) (combine bandsin arr) | Raise x => Raise x | OutOfFuel => OutOfFuel end
  else Raise ValueError.

(** ** the analyzer.  [fid]: fiducial magnitudes and mask of each band; [fidnames]: the indices of each fiducial sequence; [dat]: one row per band of [names], None where the data has no such band *)
Inductive key := KBand (b : name) | KColor (b1 b2 : name).
Record cmd := Cmd { names : list name; fid : dict; nfid : nat; fidnames : list (nat * list nat); dmod : R;
  dat : option (list (option row)); dmask : list bool; nd : nat;
  cen : R * R * R; locs : option (list (list R)); dnames : option (list nat); dgrp : option (list Z);
  offsets : option (list (option R)); offbands : option (list key); offws : option (list R); locw : option R }.
(** __init__ 1221-1273.  [sortb] sorts the bands (Band.__lt__).  [fn]: None when fidname is a string (then its name is 0) *)
Variable sortb : list name -> list name.
Fixpoint insert_nat (x : nat) (l : list nat) : list nat := match l with [] => [x] | y :: r => if Nat.leb x y then x :: l else y :: insert_nat x r end.
Definition sort_nat (l : list nat) : list nat := fold_right insert_nat [] l.
(** np.all(vals == np.arange(n)), with the broadcasting of numpy: an array of length 1 is compared with every element of the other *)
Definition np_all_eq (l : list nat) (n : nat) : bool :=
  if Nat.eqb (length l) n then (if list_eq_dec Nat.eq_dec l (seq 0 n) then true else false)
  else if Nat.eqb n 1 then forallb (Nat.eqb 0) l
  else match l with [x] => forallb (Nat.eqb x) (seq 0 n) | _ => false end.
Definition init (fiducial : list row) (fbands : list band_in) (fn : option (list (nat * list nat))) : @res cmd :=
  match to_dicts fbands fiducial with
  | Ok d =>
      let ns := sortb (map fst d) in
      let n := match fiducial with r :: _ => length r | [] => O end in
      let mk f := Cmd ns d n f 0 None (map (fun _ => false) ns) 0 (0, 0, 0) None None None None None None (Some 1) in
      match fn with
      | None => Ok (mk [(O, seq 0 n)])
      | Some f => if np_all_eq (sort_nat (flat_map snd f)) n then Ok (mk f) else Raise ValueError
      end
  | Raise e => Raise e | OutOfFuel => OutOfFuel
  end.

Fixpoint index (b : name) (l : list name) : option nat := match l with [] => None | x :: l => if Nat.eqb x b then Some O else option_map S (index b l) end.
Definition fmask (s : cmd) (b : name) : bool := match lookup b (fid s) with Some (_, m) => m | None => false end.
Definition fidmask (s : cmd) : list bool := map (fmask s) (names s).
Definition frow (s : cmd) (b : name) : row := match lookup b (fid s) with Some (r, _) => r | None => [] end.
(** the data row of a band that is one of [names] *)
Definition drow (s : cmd) (b : name) : option row := match dat s with None => None | Some d => match index b (names s) with Some i => nth i d None | None => None end end.
Definition dmasked (s : cmd) (b : name) : bool := match index b (names s) with Some i => nth i (dmask s) false | None => false end.
Definition olift2 (f : row -> row -> row) (a b : option row) : option row := match a, b with Some a, Some b => Some (f a b) | _, _ => None end.

(** getFiducialData 1346-1377 for a band name or a color (KeyError for a color with an unknown band comes from the dictionaries) *)
Definition pick (m : list nat) (r : row) : row := map (fun i => nth i r 0) m.
Definition getFiducialData (s : cmd) (k : key) (fn : option nat) : @res row :=
  match (match fn with None => Some (seq 0 (nfid s)) | Some f => lookup f (fidnames s) end) with
  | None => Raise KeyError
  | Some m =>
      match k with
      | KBand b => if fmask s b then Ok (map (fun x => x + dmod s) (pick m (frow s b))) else Raise ValueError
      | KColor b1 b2 =>
          match lookup b1 (fid s), lookup b2 (fid s) with
          | None, None => Raise ValueError
          | Some (r1, m1), Some (r2, m2) => if negb m1 && negb m2 then Raise ValueError else Ok (rsub (pick m r1) (pick m r2))
          | _, _ => Raise KeyError
          end
      end
  end.
(** getData 1395-1415 with a name or a color *)
Definition valid (s : cmd) (b : name) : bool := existsb (Nat.eqb b) (names s) && dmasked s b && fmask s b.
Definition getData (s : cmd) (k : key) : @res (option row) :=
  match k with
  | KBand b => if valid s b then Ok (drow s b) else Raise ValueError
  | KColor b1 b2 => if negb (valid s b1) && negb (valid s b2) then Raise ValueError
      else match index b1 (names s), index b2 (names s) with Some _, Some _ => Ok (olift2 rsub (drow s b1) (drow s b2)) | _, _ => Raise ValueError end
  end.

(** ** _calculateOffsets 1277-1337: one row of fiducials and one of data for each band or color *)
Definition check_key (s : cmd) (k : key) : @res unit :=
  match k with
  | KBand b => match index b (names s) with None => Raise ValueError | Some _ => if negb (dmasked s b) then Raise ValueError else if negb (fmask s b) then Raise ValueError else Ok tt end
  | KColor b1 b2 =>
      match index b1 (names s), index b2 (names s) with
      | Some _, Some _ => if (fmask s b1 && dmasked s b1) || (fmask s b2 && dmasked s b2) then Ok tt else Raise ValueError
      | _, _ => Raise ValueError
      end
  end.
Fixpoint check_keys (s : cmd) (l : list key) : @res unit := match l with [] => Ok tt | k :: l => match check_key s k with Ok _ => check_keys s l | x => x end end.
Definition all_keys (s : cmd) : list key := map KBand (filter (fun b => fmask s b && dmasked s b) (names s)).
Definition fkey (s : cmd) (k : key) : row := match k with KBand b => map (fun x => x + dmod s) (frow s b) | KColor b1 b2 => rsub (frow s b1) (frow s b2) end.
Definition dkey (s : cmd) (k : key) : option row := match k with KBand b => drow s b | KColor b1 b2 => olift2 rsub (drow s b1) (drow s b2) end.
(** [diff] of one band, for the datum j and the fiducial k; weights 1323-1329: a negative one is divided by the range of all differences *)
Definition rmaxl (l : list R) : R := match l with [] => 0 | x :: l => fold_left Rmax l x end.
Definition rminl (l : list R) : R := match l with [] => 0 | x :: l => fold_left Rmin l x end.
Definition diffs (f d : row) : list R := flat_map (fun x => map (fun y => y - x) f) d.
Definition eff_weight (w : R) (f d : row) : R := if Rlt_dec w 0 then - w / (rmaxl (diffs f d) - rminl (diffs f d)) else w.
Fixpoint sepsq (cols : list (row * row * R)) (j k : nat) : R :=
  match cols with [] => 0 | (f, d, w) :: cols => (nth k f 0 - nth j d 0) * w * ((nth k f 0 - nth j d 0) * w) + sepsq cols j k end.
(** the location term; [cen] is cut to the dimension of the locations *)
Fixpoint dot (a b : list R) : R := match a, b with x :: a, y :: b => (x - y) * (x - y) + dot a b | _, _ => 0 end.
Definition loc_term (s : cmd) (j : nat) : R :=
  match locw s, locs s with
  | Some w, Some l => if Req_EM_T w 0 then 0 else let '(x, y, z) := cen s in w * dot (nth j l []) [x; y; z]
  | _, _ => 0
  end.
Fixpoint all_some {A} (l : list (option A)) : option (list A) := match l with [] => Some [] | Some a :: l => option_map (cons a) (all_some l) | None :: _ => None end.
Definition calculate (s : cmd) : @res (list (option R)) :=
  match (match offbands s with None => Ok (all_keys s) | Some l => match check_keys s l with Ok _ => Ok l | Raise e => Raise e | OutOfFuel => OutOfFuel end end) with
  | Raise e => Raise e | OutOfFuel => OutOfFuel
  | Ok ks =>
      match ks, nfid s with
      | [], _ | _, O => Raise ValueError
      | _, _ =>
          match all_some (map (dkey s) ks) with
          | None => Ok (map (fun _ => None) (seq 0 (nd s)))
          | Some ds =>
              let fs := map (fkey s) ks in
              let ws := match offws s with None => map (fun _ => 1) ks | Some ws => map (fun p => eff_weight (fst p) (fst (snd p)) (snd (snd p))) (combine ws (combine fs ds)) end in
              let cols := combine (combine fs ds) ws in
              Ok (map (fun j => let q := rminl (map (sepsq cols j) (seq 0 (nfid s))) + loc_term s j in if Rlt_dec q 0 then None else Some (sqrt q)) (seq 0 (nd s)))
          end
      end
  end.

(** ** the operations: the new state (the old one after an exception) and what is returned *)
Definition with_offsets (s : cmd) o := Cmd (names s) (fid s) (nfid s) (fidnames s) (dmod s) (dat s) (dmask s) (nd s) (cen s) (locs s) (dnames s) (dgrp s) o (offbands s) (offws s) (locw s).
(** getOffsets 1595-1603, clearOffsets 1604-1608 *)
Definition getOffsets (s : cmd) : cmd * @res (list (option R)) :=
  match dat s with
  | None => (s, Raise ValueError)
  | Some _ => match offsets s with
      | Some o => (s, Ok o)
      | None => match calculate s with Ok o => (with_offsets s (Some o), Ok o) | Raise e => (s, Raise e) | OutOfFuel => (s, OutOfFuel) end
      end
  end.
Definition clearOffsets (s : cmd) : cmd := with_offsets s None.
(** _setDMod 1620-1630 *)
Definition setDMod (v : R) (s : cmd) : cmd := Cmd (names s) (fid s) (nfid s) (fidnames s) v (dat s) (dmask s) (nd s) (cen s) (locs s) (dnames s) (dgrp s) None (offbands s) (offws s) (locw s).
(** _setLocW 1665-1667 *)
Definition setLocW (v : option R) (s : cmd) : cmd := Cmd (names s) (fid s) (nfid s) (fidnames s) (dmod s) (dat s) (dmask s) (nd s) (cen s) (locs s) (dnames s) (dgrp s) None (offbands s) (offws s) v.
(** _setOffWs 1640-1648: the test of the length takes len() of the offset bands even if they are None *)
Definition setOffWs (v : option (list R)) (s : cmd) : @res cmd :=
  match v with
  | None => Ok (Cmd (names s) (fid s) (nfid s) (fidnames s) (dmod s) (dat s) (dmask s) (nd s) (cen s) (locs s) (dnames s) (dgrp s) (offsets s) (offbands s) None (locw s))
  | Some w =>
      match offbands s with
      | None => if Nat.eqb (length w) (length (names s)) then Raise TypeError else Raise ValueError
      | Some b => if Nat.eqb (length w) (length b) then Ok (Cmd (names s) (fid s) (nfid s) (fidnames s) (dmod s) (dat s) (dmask s) (nd s) (cen s) (locs s) (dnames s) (dgrp s) None (offbands s) (Some w) (locw s)) else Raise ValueError
      end
  end.
(** _setOffBands 1540-1587: a string (the names between its dashes), a number, or a pair of names or numbers.  The parts of a pair are added one by one *)
Inductive part := PName (b : name) | PNum (i : Z).
Inductive off_in := OStr (parts : list name) | ONum (i : Z) | OPair (a b : part).
Inductive op_ := OpOne (i : Z) | OpTwo (i j : Z).
Definition zindex (s : cmd) (b : name) : @res Z := match index b (names s) with Some i => Ok (Z.of_nat i) | None => Raise ValueError end.
Definition part_index (s : cmd) (p : part) : @res Z := match p with PName b => zindex s b | PNum i => Ok i end.
Definition read_off (s : cmd) (v : off_in) : @res (list op_) :=
  match v with
  | OStr [b] => match zindex s b with Ok i => Ok [OpOne i] | _ => Raise ValueError end
  | OStr [b1; b2] => match zindex s b1, zindex s b2 with Ok i, Ok j => Ok [OpTwo i j] | _, _ => Raise ValueError end
  | OStr _ => Raise ValueError
  | ONum i => Ok [OpOne i]
  | OPair a b => match part_index s a, part_index s b with Ok i, Ok j => Ok [OpOne i; OpOne j] | _, _ => Raise ValueError end
  end.
Fixpoint read_offs (s : cmd) (l : list off_in) : @res (list op_) :=
  match l with [] => Ok [] | v :: l => match read_off s v with Ok a => match read_offs s l with Ok b => Ok (a ++ b) | x => x end | x => x end end.
Definition key_of (s : cmd) (o : op_) : option key :=
  match o with
  | OpOne i => match py_get (names s) i with Some b => Some (KBand b) | None => None end
  | OpTwo i j => match py_get (names s) i, py_get (names s) j with Some a, Some b => Some (KColor a b) | _, _ => None end
  end.
Definition with_offbands (s : cmd) b := Cmd (names s) (fid s) (nfid s) (fidnames s) (dmod s) (dat s) (dmask s) (nd s) (cen s) (locs s) (dnames s) (dgrp s) None b None (locw s).
Definition setOffBands (v : option (list off_in)) (s : cmd) : @res cmd :=
  match v with
  | None => Ok (with_offbands s None)
  | Some l => match read_offs s l with
      | Ok ops => match all_some (map (key_of s) ops) with Some ks => Ok (with_offbands s (Some ks)) | None => Raise IndexError end
      | Raise e => Raise e | OutOfFuel => OutOfFuel
      end
  end.
(** _getOffBands 1535-1538: colors as strings *)
Definition getOffBands (s : cmd) : option (list off_in) := option_map (map (fun k => match k with KBand b => OStr [b] | KColor a b => OStr [a; b] end)) (offbands s).
(** setData 1416-1470.  From an array, or from a dictionary of bands and colors (of which at least one must be in a band of the fiducials: without one the code stores an array of another shape, which is not modelled) *)
Inductive data_in := DArr (rows : list row) | DMap (items : list (band_in * row)).
Definition finish_data (s : cmd) (d : list (option row)) (m : list bool) (n : nat) : cmd :=
  let s1 := Cmd (names s) (fid s) (nfid s) (fidnames s) (dmod s) (Some d) m n (cen s) (locs s) (dnames s) (dgrp s) (offsets s) (offbands s) (offws s) (locw s) in
  let s2 := match setOffBands (getOffBands s1) s1 with Ok s2 => s2
            | _ => Cmd (names s1) (fid s1) (nfid s1) (fidnames s1) (dmod s1) (dat s1) (dmask s1) (nd s1) (cen s1) (locs s1) (dnames s1) (dgrp s1) (offsets s1) None (offws s1) (locw s1) end in
  Cmd (names s2) (fid s2) (nfid s2) (fidnames s2) (dmod s2) (dat s2) (dmask s2) (nd s2) (cen s2) None None (dgrp s2) None (offbands s2) (offws s2) (locw s2).
Definition setData (v : data_in) (s : cmd) : @res cmd :=
  match v with
  | DArr rows =>
      if Nat.eqb (length rows) (length (names s)) then Ok (finish_data s (map Some rows) (map (fun _ => true) rows) (match rows with r :: _ => length r | [] => O end)) else Raise ValueError
  | DMap items =>
      match to_dicts (map fst items) (map snd items) with
      | Ok d =>
          let cols := map (fun b => match lookup b d with Some (r, true) => Some r | _ => None end) (names s) in
          match find (fun c => match c with Some _ => true | None => false end) cols with
          | Some (Some r) => Ok (finish_data s cols (map (fun c => match c with Some _ => true | None => false end) cols) (length r))
          | _ => Raise NotImplementedError
          end
      | Raise e => Raise e | OutOfFuel => OutOfFuel
      end
  end.
(** _setLocs 1476-1486: [l] has one list of coordinates for each object, [dim] of them; _setCen 1521-1530 *)
Definition setLocs (v : option (nat * list (list R))) (s : cmd) : @res cmd :=
  let upd l := Cmd (names s) (fid s) (nfid s) (fidnames s) (dmod s) (dat s) (dmask s) (nd s) (cen s) l (dnames s) (dgrp s) (offsets s) (offbands s) (offws s) (locw s) in
  match v with
  | None => Ok (upd None)
  | Some (dim, l) => if Nat.ltb dim 2 || Nat.ltb 3 dim then Raise ValueError else if Nat.eqb (length l) (nd s) then Ok (upd (Some l)) else Raise ValueError
  end.
Definition setCen (v : option (list R)) (s : cmd) : @res cmd :=
  let upd c := Cmd (names s) (fid s) (nfid s) (fidnames s) (dmod s) (dat s) (dmask s) (nd s) c (locs s) (dnames s) (dgrp s) (offsets s) (offbands s) (offws s) (locw s) in
  match v with None => Ok (upd (0, 0, 0)) | Some [x; y] => Ok (upd (x, y, 0)) | Some [x; y; z] => Ok (upd (x, y, z)) | Some _ => Raise ValueError end.
(** datanames 1490-1498 and datagroups 1503-1511 *)
Definition getDName (s : cmd) : list nat := match dnames s with None => map S (seq 0 (nd s)) | Some l => l end.
Definition setDName (v : list nat) (s : cmd) : @res cmd :=
  if Nat.eqb (length v) (nd s) then Ok (Cmd (names s) (fid s) (nfid s) (fidnames s) (dmod s) (dat s) (dmask s) (nd s) (cen s) (locs s) (Some v) (dgrp s) (offsets s) (offbands s) (offws s) (locw s)) else Raise ValueError.
Definition setDGrp (v : option (list Z)) (s : cmd) : @res cmd :=
  let upd g := Cmd (names s) (fid s) (nfid s) (fidnames s) (dmod s) (dat s) (dmask s) (nd s) (cen s) (locs s) (dnames s) g (offsets s) (offbands s) (offws s) (locw s) in
  match v with None => Ok (upd None) | Some l => if Nat.eqb (length l) (nd s) then Ok (upd (Some l)) else Raise ValueError end.
End Registry.
