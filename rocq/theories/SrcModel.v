(** * SrcModel: sources of measurements (astropysics/objcat.py 1486-1693: _SourceMeta and Source).
    Text is a list of characters.  A world is the living Source objects (numbered), the weak dictionary of the singletons,
    the cache of ADS records, whether adsurl is set, and the codes asked from ADS so far.  The answers of the network are
    arguments: [find] looks up a location, [server n code] are the records of the n-th request.  A source is freed when its last
    reference goes away (reference counting); a SourceDataError is UserExn 0.  Left out: how the URL is made from a location,
    warnings, BibTeX entries, the fields read from a record. *)
From Coq Require Import List Bool Arith Ascii String.
From Verif Require Import PyBase PubModel.
Import ListNotations.

Definition SourceDataError : exn := UserExn 0.
Definition slash : ascii := "/"%char.
Record source := Source { s_str : str; s_code : option str }.
Definition record := nat.
Record world := World { heap : list (nat * source); sing : list (str * nat); next : nat; cache : option (list (str * record)); adsurl : bool; asked : list str }.
Definition newWorld (url : bool) : world := World [] [] 0 (Some []) url [].

Fixpoint get_obj (h : list (nat * source)) (i : nat) : option source := match h with [] => None | (j, s) :: r => if Nat.eqb j i then Some s else get_obj r i end.
Fixpoint get_str {A} (l : list (str * A)) (k : str) : option A := match l with [] => None | (j, v) :: r => if str_eqb j k then Some v else get_str r k end.
Definition set_code (h : list (nat * source)) (i : nat) (c : option str) : list (nat * source) := map (fun p => if Nat.eqb (fst p) i then (fst p, Source (s_str (snd p)) c) else p) h.
Definition with_heap (w : world) (h : list (nat * source)) : world := World h (sing w) (next w) (cache w) (adsurl w) (asked w).

(** a bibcode argument: None, a string, something else *)
Inductive bib := BNone | BStr (s : str) | BOther.
(** setBibcode 1562-1597 with the first lines of _findADScode 1599-1606 *)
Definition code_of (url : bool) (find : str -> @res str) (b : bib) : @res (option str) :=
  match b with
  | BNone => Ok None
  | BOther => Raise TypeError
  | BStr [] => Ok None
  | BStr s => if url then bindr (find s) (fun c => Ok (Some c)) else Ok (Some s)
  end.
(** Source.__init__ 1525-1540 *)
Definition init (url : bool) (find : str -> @res str) (src : str) (b : bib) : @res source :=
  match b with
  | BNone =>
      if existsb (fun a => a =a slash) src then
        let sp := split_on slash src in
        match rev sp with
        | w :: v :: _ =>
            if str_eqb v [] then Ok (Source (strip (join [slash] (removelast (removelast sp)))) (Some (strip w)))
            else bindr (code_of url find (BStr (strip w))) (fun c => Ok (Source (strip (join [slash] (removelast sp))) c))
        | _ => Raise IndexError
        end
      else Ok (Source src None)
  | _ => bindr (code_of url find b) (fun c => Ok (Source src c))
  end.
(** _SourceMeta.__call__ 1487-1502 *)
Definition intern (w : world) (o : source) : world * nat :=
  match get_str (sing w) (s_str o) with
  | Some i =>
      (match s_code o with
       | Some c => match get_obj (heap w) i with
                   | Some s => if match s_code s with Some c' => str_eqb c c' | None => false end then w else with_heap w (set_code (heap w) i (Some c))
                   | None => w
                   end
       | None => w
       end, i)
  | None => (World ((next w, o) :: heap w) ((s_str o, next w) :: sing w) (S (next w)) (cache w) (adsurl w) (asked w), next w)
  end.
(** the argument of the constructor: a string or a Source *)
Inductive src_arg := AText (s : str) | AObj (i : nat).
Definition newSource (find : str -> @res str) (w : world) (a : src_arg) (b : bib) : world * @res nat :=
  match (match a with AText s => Some s | AObj i => option_map s_str (get_obj (heap w) i) end) with
  | None => (w, Raise AttributeError)
  | Some s => match init (adsurl w) find s b with
              | Ok o => let (w', i) := intern w o in (w', Ok i)
              | Raise e => (w, Raise e)
              | OutOfFuel => (w, OutOfFuel)
              end
  end.
(** setBibcode 1562-1597 *)
Definition setBibcode (find : str -> @res str) (w : world) (i : nat) (b : bib) : world * @res unit :=
  match get_obj (heap w) i with
  | None => (w, Raise AttributeError)
  | Some _ => match code_of (adsurl w) find b with
              | Ok c => (with_heap w (set_code (heap w) i c), Ok tt)
              | Raise e => (w, Raise e)
              | OutOfFuel => (w, OutOfFuel)
              end
  end.
(** the last reference goes away: the object dies, and its entry in the weak dictionary with it *)
Definition free (w : world) (i : nat) : world := World (filter (fun p => negb (Nat.eqb (fst p) i)) (heap w)) (filter (fun p => negb (Nat.eqb (snd p) i)) (sing w)) (next w) (cache w) (adsurl w) (asked w).
(** __reduce__ 1542-1543: the text of a pickle *)
Definition reduced (s : source) : str := s_str s ++ match s_code s with None => [] | Some c => [slash; slash] ++ c end.
(** __str__ 1545-1546 *)
Definition shown (s : source) : str := s_str s ++ match s_code s with Some c => [" "%char; "@"%char] ++ c | None => [] end.
Definition unpickle (find : str -> @res str) (w : world) (text : str) : world * @res nat := newSource find w (AText text) BNone.

(** ** records of ADS 1641-1693 *)
Definition with_cache (w : world) (c : option (list (str * record))) : world := World (heap w) (sing w) (next w) c (adsurl w) (asked w).
(** clearADSCache 1643-1652, useADSCache 1654-1667 *)
Definition clearCache (w : world) (code : option str) : world * @res unit :=
  match code, cache w with
  | None, Some _ => (with_cache w (Some []), Ok tt)
  | None, None => (w, Raise AttributeError)
  | Some c, Some l => if get_str l c then (with_cache w (Some (filter (fun p => negb (str_eqb (fst p) c)) l)), Ok tt) else (w, Raise KeyError)
  | Some _, None => (w, Raise TypeError)
  end.
Definition useCache (w : world) (enable : bool) : world := if enable then match cache w with None => with_cache w (Some []) | Some _ => w end else with_cache w None.
(** _getADSXMLRec 1669-1693 *)
Definition getRecord (server : nat -> str -> @res (list record)) (w : world) (i : nat) : world * @res record :=
  match get_obj (heap w) i with
  | None => (w, Raise AttributeError)
  | Some s =>
      match s_code s with
      | None => (w, Raise SourceDataError)
      | Some c =>
          if adsurl w then
            match (match cache w with Some l => get_str l c | None => None end) with
            | Some r => (w, Ok r)
            | None =>
                let w' := World (heap w) (sing w) (next w) (cache w) (adsurl w) (asked w ++ [c]) in
                match server (List.length (asked w)) c with
                | Ok [] => (w', Raise IndexError)
                | Ok [r] => (match cache w with Some l => with_cache w' (Some ((c, r) :: l)) | None => w' end, Ok r)
                | Ok _ => (w', Raise SourceDataError)
                | Raise e => (w', Raise e)
                | OutOfFuel => (w', OutOfFuel)
                end
            end
          else (w, Raise SourceDataError)
      end
  end.
