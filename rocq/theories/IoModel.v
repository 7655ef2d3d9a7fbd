(** * IoModel: astropysics/utils/io.py

    get_data and its cache, fpickle and funpickle, FixedColumnDataParser. *)
From Coq Require Import List Bool ZArith Ascii Arith Lia.
From Verif Require Import PyBase PubModel.
Import ListNotations.

(** ** get_data 276-370.  URLs and file names in the data directory are numbers; contents are lists of characters.
    [urlname]: the last part of the path of a URL, [None] if it is blank (348-350) *)
Section Data.
Variable urlname : nat -> option nat.
Definition IOError := UserExn 1.
Definition URLError := UserExn 2.
(** what the server answers: the name in Content-Disposition, if any, whether the type is html (always given), and the data *)
Inductive reply := Unreachable | Reply (disp : option nat) (html : bool) (data : str).
(** the shelf url2fn 330 and the files of the directory *)
Record store := Store { urlmap : nat -> option nat; files : nat -> option str }.
Definition no_store : store := Store (fun _ => None) (fun _ => None).
Definition upd {A} (f : nat -> option A) (k : nat) (v : option A) : nat -> option A := fun x => if Nat.eqb x k then v else f x.
(** what a call does to the disk, in order: open(...,'w'), the characters written, the entry of the shelf.  The shelf is written through *)
Inductive effect := Truncate (f : nat) | Append (f : nat) (a : ascii) | Remember (u f : nat).
Definition act (s : store) (e : effect) : store :=
  match e with
  | Truncate f => Store (urlmap s) (upd (files s) f (Some []))
  | Append f a => Store (urlmap s) (upd (files s) f (Some (match files s f with Some c => c | None => [] end ++ [a])))
  | Remember u f => Store (upd (urlmap s) u (Some f)) (files s)
  end.
Definition acts (es : list effect) (s : store) : store := fold_left act es s.
(** _data_store 272: True, False or 'refresh' *)
Inductive mode := Always | Never | Refresh.
(** 331-333 *)
Definition stored (u : nat) (s : store) : bool := match urlmap s u with Some f => match files s f with Some _ => true | None => false end | None => false end.
Definition needed (m : mode) (u : nat) (s : store) : bool := match m with Refresh => true | _ => negb (stored u s) end.
(** 337-358: the local name; 355: startag is not defined *)
Definition local_name (u : nat) (lf disp : option nat) (html : bool) : @res nat :=
  match lf with
  | Some f => Ok f
  | None => match disp with
      | Some f => Ok f
      | None => match urlname u with Some f => Ok f | None => if html then Raise NameError else Raise URLError end
      end
  end.
(** 334-364: the effects of a call with store on *)
Definition plan (m : mode) (u : nat) (lf : option nat) (r : reply) (s : store) : @res (list effect) :=
  if needed m u s then
    match r with
    | Unreachable => Raise URLError
    | Reply disp html data => match local_name u lf disp html with
        | Ok f => Ok (Truncate f :: map (Append f) data ++ [Remember u f])
        | Raise e => Raise e | OutOfFuel => OutOfFuel
        end
    end
  else Ok [].
Definition read (f : nat) (s : store) : @res str := match files s f with Some c => Ok c | None => Raise IOError end.
(** a URL (None: a local name, 318-323) *)
Inductive request := Local (f : nat) | Url (m : mode) (u : nat) (lf : option nat) (r : reply).
Definition get_data (q : request) (s : store) : store * @res str :=
  match q with
  | Local f => (s, read f s)
  | Url Never u lf r => (s, match r with Unreachable => Raise URLError | Reply _ _ data => Ok data end)
  | Url m u lf r =>
      match plan m u lf r s with
      | Ok es => let s' := acts es s in (s', match urlmap s' u with Some f => read f s' | None => Raise KeyError end)
      | Raise e => (s, Raise e) | OutOfFuel => (s, OutOfFuel)
      end
  end.
(** the program stops after k effects *)
Definition crash (k : nat) (q : request) (s : store) : store :=
  match q with
  | Local _ | Url Never _ _ _ => s
  | Url m u lf r => match plan m u lf r s with Ok es => acts (firstn k es) s | _ => s end
  end.
End Data.

(** ** fpickle 92-134 and funpickle 42-90.  [enc], [dec]: pickle.dump and pickle.load (None: EOFError) of a file of characters *)
Section Pickle.
Context {obj : Type}.
Variable enc : obj -> str.
Variable dec : str -> option (obj * str).
Definition EOFError := UserExn 3.
Definition fpickle (x : obj) (append : bool) (file : option str) : option str := Some ((if append then match file with Some c => c | None => [] end else []) ++ enc x).
Fixpoint load_n (n : nat) (c : str) : @res (list obj) :=
  match n with
  | O => Ok []
  | S n => match dec c with Some (x, c') => match load_n n c' with Ok l => Ok (x :: l) | e => e end | None => Raise EOFError end
  end.
Fixpoint load_all (fuel : nat) (c : str) : @res (list obj) :=
  match fuel with
  | O => OutOfFuel
  | S fuel => match dec c with Some (x, c') => match load_all fuel c' with Ok l => Ok (x :: l) | e => e end | None => Ok [] end
  end.
Inductive loaded := LOne (x : obj) | LMany (l : list obj).
Definition funpickle (fuel : nat) (number : Z) (file : option str) : @res loaded :=
  match file with
  | None => Raise IOError
  | Some c =>
      if (0 <? number)%Z then match load_n (Z.to_nat number) c with Ok l => Ok (LMany l) | Raise e => Raise e | OutOfFuel => OutOfFuel end
      else if (number <? 0)%Z then match load_all fuel c with Ok l => Ok (LMany l) | Raise e => Raise e | OutOfFuel => OutOfFuel end
      else match dec c with Some (x, _) => Ok (LOne x) | None => Raise EOFError end
  end.
End Pickle.

(** ** FixedColumnDataParser 569-811.  Column names are numbers in the model of the columns; formats are left out: values are texts *)
Record col := Col { lower : Z; upper : Z; convs : option (list (str * str)) }.
Record parser := Parser { cols : list (nat * col); skiprows : nat; firstcol : Z; commentchars : str }.
Definition newParser (skip : nat) (first : Z) (com : str) : parser := Parser [] skip first com.
Fixpoint put {A} (n : nat) (c : A) (l : list (nat * A)) : list (nat * A) := match l with [] => [(n, c)] | (k, d) :: l => if Nat.eqb k n then (n, c) :: l else (k, d) :: put n c l end.
Fixpoint del {A} (n : nat) (l : list (nat * A)) : list (nat * A) := match l with [] => [] | (k, d) :: l => if Nat.eqb k n then l else (k, d) :: del n l end.
Fixpoint look {A} (n : nat) (l : list (nat * A)) : option A := match l with [] => None | (k, d) :: l => if Nat.eqb k n then Some d else look n l end.
(** _overlapcheck 596-599 *)
Definition overlaps (lo hi : Z) (exclude : nat) (p : parser) : bool := existsb (fun '(n, c) => negb (Nat.eqb n exclude) && (lo <=? upper c)%Z && (lower c <=? hi)%Z) (cols p).
(** addColumn 603-630, delColumn 734-741 *)
Definition addColumn (n : nat) (c : col) (p : parser) : @res parser := if overlaps (lower c) (upper c) n p then Raise ValueError else Ok (Parser (put n c (cols p)) (skiprows p) (firstcol p) (commentchars p)).
Definition delColumn (n : nat) (p : parser) : @res parser := match look n (cols p) with Some _ => Ok (Parser (del n (cols p)) (skiprows p) (firstcol p) (commentchars p)) | None => Raise KeyError end.
(** a Python slice row[a:b] *)
Definition clip (len : nat) (i : Z) : nat := let i := if (i <? 0)%Z then (i + Z.of_nat len)%Z else i in Nat.min (Z.to_nat i) len.
Definition slice (a b : Z) (s : str) : str := let i := clip (length s) a in let j := clip (length s) b in firstn (j - i) (skipn i s).
Definition lstrip (s : str) : str := snd (span is_space s).
Definition strip (s : str) : str := rstrip (lstrip s).
Fixpoint get_conv (v : str) (l : list (str * str)) : str := match l with [] => v | (k, w) :: l => if str_eqb k v then w else get_conv v l end.
(** parseFile 743-811 for the lines of a file, each with its newline.  The dictionaries are lists of pairs; the columns are sorted by their lower edge (argsort, here insertion) *)
Definition validrow (p : parser) (i : nat) (row : str) : bool := Nat.leb (skiprows p) i && match strip row with [] => false | a :: _ => negb (existsb (fun c => a =a c) (commentchars p)) end.
Definition cell (p : parser) (c : col) (row : str) : str :=
  let v := slice (lower c - firstcol p) (upper c - firstcol p + 1) row in match convs c with None => v | Some l => get_conv v l end.
Fixpoint rows_from (p : parser) (i : nat) (lines : list str) : list str := match lines with [] => [] | r :: l => if validrow p i r then r :: rows_from p (S i) l else rows_from p (S i) l end.
Definition blank (v : str) : bool := match strip v with [] => true | _ => false end.
Fixpoint insert (x : nat * col) (l : list (nat * col)) : list (nat * col) := match l with [] => [x] | y :: l => if (lower (snd x) <=? lower (snd y))%Z then x :: y :: l else y :: insert x l end.
Fixpoint sort (l : list (nat * col)) : list (nat * col) := match l with [] => [] | x :: l => insert x (sort l) end.
(** the columns in order, each with its values; None: a masked value *)
Definition parseFile (p : parser) (lines : list str) : @res (list (nat * list (option str))) :=
  match cols p with
  | [] => Raise IndexError
  | _ => let rows := rows_from p 0 lines in
      Ok (map (fun '(n, c) => (n, map (fun r => let v := cell p c r in if blank v then None else Some v) rows)) (sort (cols p)))
  end.
(** addColumnsFromFile 632-732, lines with three entries name, lower, upper or four with a format.  [named]: the number of a name; [start], [sep]: columnlinestart and sep, None for the default.
    The fifth entry (a Python expression) is left out: such lines are refused here *)
Section Columns.
Variable named : str -> nat.
Definition py_int (s : str) : @res Z :=
  let s := strip s in
  let '(sg, d) := match s with a :: r => if a =a "-"%char then (-1, r)%Z else if a =a "+"%char then (1, r)%Z else (1, s)%Z | [] => (1, s)%Z end in
  match parse_index d with Some n => Ok (sg * Z.of_nat n)%Z | None => Raise ValueError end.
(** str.split with and without separator; a separator is one character here *)
Fixpoint words (cur s : str) : list str :=
  match s with
  | [] => match cur with [] => [] | _ => [cur] end
  | a :: r => if is_space a then match cur with [] => words [] r | _ => cur :: words [] r end else words (cur ++ [a]) r
  end.
Definition splitl (sep : option ascii) (s : str) : list str := match sep with Some c => split_on c s | None => words [] s end.
(** str.replace(p,'') for a nonempty p *)
Fixpoint remove_all (fuel : nat) (p s : str) : str :=
  match fuel with O => s | S f => match s with [] => [] | a :: r => match drop p s with Some r' => remove_all f p r' | None => a :: remove_all f p r end end end.
Definition starts (p s : str) : bool := match drop p s with Some _ => true | None => false end.
Definition column_of (l : list str) : @res (nat * col) :=
  match l with
  | n :: a :: b :: rest => match py_int a with
      | Ok lo => match py_int b with
          | Ok hi => match rest with [] | [_] => Ok (named n, Col lo hi None) | _ => Raise NotImplementedError end
          | Raise e => Raise e | OutOfFuel => OutOfFuel end
      | Raise e => Raise e | OutOfFuel => OutOfFuel end
  | _ => Raise IndexError
  end.
Fixpoint add_from (start : option str) (sep : option ascii) (maxcols : option nat) (icols : nat) (lines : list str) (p : parser) : @res (parser * nat) :=
  match lines with
  | [] => Ok (p, icols)
  | l :: lines =>
      let ls := strip l in
      let entry := match start with None => Some (splitl sep ls) | Some st => if starts st ls then Some (splitl sep (remove_all (length ls) st ls)) else None end in
      let step p icols := if match maxcols with Some m => Nat.leb m icols | None => false end then Ok (p, icols) else add_from start sep maxcols icols lines p in
      match entry with
      | None => step p icols
      | Some e => match column_of e with
          | Ok (n, c) => match addColumn n c p with Ok p' => step p' (S icols) | Raise x => Raise x | OutOfFuel => OutOfFuel end
          | Raise x => Raise x | OutOfFuel => OutOfFuel
          end
      end
  end.
Definition addColumnsFromFile (start : option str) (sep : option ascii) (useskip : bool) (maxcols : option nat) (lines : list str) (p : parser) : @res (parser * nat) :=
  add_from start sep maxcols 0 (if useskip then skipn (skiprows p) lines else lines) p.
End Columns.
