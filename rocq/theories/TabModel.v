(** * TabModel: TextTableAction, objcat.py 3739-4062: source codes, and the text of the tables.  What extractFieldAtNode gives comes as columns. *)
From Coq Require Import List Bool Arith Ascii String.
From Verif Require Import PyBase PubModel.
Import ListNotations.

(** ** Source codes, 3898-3939 *)
(** numpy.unique of strings and of integers: sorted, each once *)
Fixpoint str_ltb (a b : str) : bool :=
  match a, b with
  | _, [] => false
  | [], _ => true
  | x :: a, y :: b => if Nat.ltb (nat_of_ascii x) (nat_of_ascii y) then true else if Nat.ltb (nat_of_ascii y) (nat_of_ascii x) then false else str_ltb a b
  end.
Fixpoint uinsert (x : str) (l : list str) : list str := match l with [] => [x] | y :: r => if str_eqb x y then l else if str_ltb x y then x :: l else y :: uinsert x r end.
Definition unique (l : list str) : list str := fold_right uinsert [] l.
Fixpoint ninsert (x : nat) (l : list nat) : list nat := match l with [] => [x] | y :: r => if Nat.eqb x y then l else if Nat.ltb x y then x :: l else y :: ninsert x r end.
Definition nunique (l : list nat) : list nat := fold_right ninsert [] l.
(** the string None; 3900: only the first nine characters are compared *)
Definition none : str := L "None".
Definition clean (s : str) : str := if str_eqb (firstn 9 s) (L "dependent") then none else s.
(** 3903-3907: None changes places with the first *)
Definition swap_none (u : list str) : list str :=
  if existsb (str_eqb none) u then match u with [] => [] | h :: _ => none :: skipn 1 (map (fun s => if str_eqb s none then h else s) u) end else none :: u.
Fixpoint index (s : str) (l : list str) : nat := match l with [] => 0 | x :: r => if str_eqb s x then 0 else S (index s r) end.
(** 3913-3917: codes in the order in which they appear, object by object; 0 comes first *)
Definition first_seen (l : list nat) : list nat := fold_left (fun o c => if existsb (Nat.eqb c) o then o else o ++ [c]) l [].
Fixpoint remove1 (n : nat) (l : list nat) : list nat := match l with [] => [] | x :: r => if Nat.eqb x n then r else x :: remove1 n r end.
(** numpy.argsort *)
Fixpoint pinsert (p : nat * nat) (l : list (nat * nat)) : list (nat * nat) := match l with [] => [p] | q :: r => if Nat.leb (fst p) (fst q) then p :: l else q :: pinsert p r end.
Definition argsort (l : list nat) : list nat := map snd (fold_right pinsert [] (combine l (seq 0 (List.length l)))).
(** rows: for each object the sources of its columns.  numpy.choose takes at most 31 choices *)
Definition source_codes (rows : list (list str)) : @res (list str * list str) :=
  let rows := map (map clean) rows in
  let usrcs := swap_none (unique (List.concat rows)) in
  let codes := map (map (fun s => index s usrcs)) rows in
  let ocodes := first_seen (List.concat codes) in
  if existsb (Nat.eqb 0) ocodes then
    let ocodes := 0 :: remove1 0 ocodes in
    let inv := argsort ocodes in
    if Nat.leb (List.length inv) 31 then
      let codes := map (map (fun c => nth c inv 0)) codes in
      let usrcs := map (fun c => nth c usrcs []) ocodes in
      Ok (map (fun r => join (L ",") (map decimal (filter (fun c => negb (Nat.eqb c 0)) (nunique r)))) codes, usrcs)
    else Raise ValueError
  else Raise ValueError.
(** 3938-3939 *)
Definition annotation (usrcs : list str) : str :=
  L "Source Code:" ++ join (L ",") (map (fun p => L " " ++ decimal (fst p) ++ L ") " ++ snd p) (skipn 1 (combine (seq 0 (List.length usrcs)) usrcs))) ++ L ".".

(** ** The text, 3852-3875 and 3941-4062 *)
Section Text.
Context {V F : Type}.
(** fmt % value; the mean of the two errors *)
Variables (show : F -> V -> str) (mean : V * V -> V).
(** columns in the order of arrnames: format, values (None: masked), upper and lower errors, or a source column (texts, 3935-3936) *)
Inductive column := Data (f : F) (v : list (option V)) (e : list (V * V)) | Source (t : list str).
(** [notes] is the annotation, unbound without a source column; [sorted]: the ordering starts with sort *)
Record table := Table { titles : list str; details : option (list str); caption : option str; with_errors : bool; columns : list column; notes : option str; sorted : bool }.
(** len(arrs[0]) *)
Definition rows_of (t : table) : @res nat := match columns t with [] => Raise IndexError | Data _ v _ :: _ => Ok (List.length v) | Source s :: _ => Ok (List.length s) end.
(** one cell without errors; the format of a source column is taken to leave texts as they are *)
Definition plain (empty : str) (i : nat) (c : column) : str := match c with Data f v _ => match nth i v None with Some x => show f x | None => empty end | Source s => nth i s [] end.
(** 3983-3990, 4019-4028; tuple(0) for a source column *)
Fixpoint with_err (i : nat) (cs : list column) : @res (list str) :=
  match cs with
  | [] => Ok []
  | Source _ :: _ => Raise TypeError
  | Data f v e :: cs =>
      match nth i v None, nth_error e i with
      | None, _ => match with_err i cs with Ok l => Ok (L "\nodata" :: l) | Raise e => Raise e | OutOfFuel => OutOfFuel end
      | Some x, Some (u, w) => match with_err i cs with Ok l => Ok ((show f x ++ L "^{+" ++ show f u ++ L "}_{-" ++ show f w ++ L "}") :: l) | Raise e => Raise e | OutOfFuel => OutOfFuel end
      | Some x, None => Raise IndexError
      end
  end.
Fixpoint mapM {A B} (f : A -> @res B) (l : list A) : @res (list B) :=
  match l with [] => Ok [] | a :: r => match f a with Ok b => match mapM f r with Ok k => Ok (b :: k) | Raise e => Raise e | OutOfFuel => OutOfFuel end | Raise e => Raise e | OutOfFuel => OutOfFuel end end.
Definition drop_last2 (s : str) : str := firstn (List.length s - 2) s.
(** lines[-1] = lines[-1][:-2] *)
Fixpoint cut_last (l : list str) : list str := match l with [] => [] | [x] => [drop_last2 x] | x :: r => x :: cut_last r end.
(** the rows of both LaTeX formats, 3978-3994 and 4014-4032 *)
Definition body (t : table) : @res (list str) :=
  match rows_of t with
  | Ok n =>
      if with_errors t then match mapM (fun i => with_err i (columns t)) (seq 0 n) with Ok ls => Ok (map (fun ss => join (L " & ") ss ++ L "\\") ls) | Raise e => Raise e | OutOfFuel => OutOfFuel end
      else Ok (map (fun i => join (L " & ") (map (plain (L "\nodata") i) (columns t)) ++ L " \\") (seq 0 n))
  | Raise e => Raise e | OutOfFuel => OutOfFuel
  end.
Definition ends_dot (s : str) : bool := match rev s with a :: _ => Ascii.eqb a "."%char | [] => false end.
(** latex, 3973-4005 *)
Definition latex (t : table) : @res str :=
  let head := [L "\begin{table}[htbp]"; L "\begin{tabular}{" ++ join (L "|") (map (fun _ => L " c ") (titles t)) ++ L "}"; join (L " & ") (titles t) ++ L " \\"; L "\hline"] in
  match body t with
  | Ok b =>
      let cap := match caption t with Some c => c | None => [] end in
      let cap := match notes t with Some n => cap ++ (if ends_dot cap then L " " else L ". ") ++ n | None => cap end in
      Ok (join [nl] (cut_last (head ++ b) ++ [L "\end{tabular}"] ++ (match cap with [] => [] | _ => [L "\caption{" ++ cap ++ L "}"] end) ++ [L "\end{table}"]))
  | Raise e => Raise e | OutOfFuel => OutOfFuel
  end.
(** deluxetable, 4007-4049: the details are enumerated even if there are none *)
Definition letter (i : nat) : str := [ascii_of_nat (97 + i)].
Fixpoint number {A} (i : nat) (l : list A) : list (nat * A) := match l with [] => [] | x :: r => (i, x) :: number (S i) r end.
Definition deluxe (t : table) : @res str :=
  let head := [L "\begin{deluxetable*}{" ++ List.concat (map (fun _ => L "c") (titles t)) ++ L "}"; L "\tablecolumns{" ++ decimal (List.length (titles t)) ++ L "}"] ++
    (match caption t with Some c => [L "\tablecaption{" ++ c ++ L "}"] | None => [] end) ++ [L "\tablehead{"] ++
    map (fun p => L "    \colhead{" ++ snd p ++ (match details t with None => [] | Some _ => L "\tablenotemark{" ++ letter (fst p) ++ L "}" end) ++ L "} &") (number 0 (titles t)) in
  match body t with
  | Ok b =>
      match details t with
      | None => Raise TypeError
      | Some d => Ok (join [nl] (cut_last (cut_last head ++ [L "}"; []; L "\startdata"; []] ++ b) ++ [[]; L "\enddata"; []] ++
                       map (fun p => L "\tablenotetext{" ++ letter (fst p) ++ L "}{" ++ snd p ++ L "}") (number 0 d) ++ [[]; L "\end{deluxetable*}"]))
      end
  | Raise e => Raise e | OutOfFuel => OutOfFuel
  end.
(** ascii, 3945-3971; errors beside a source column are not modelled (numpy.sum of a ragged list).  '%..' of a masked value is taken to be nan.
    3961: details or, whatever the columns are, the annotation *)
Definition ascii_cells (t : table) (i : nat) : list str :=
  if with_errors t then flat_map (fun c => match c with Data f v e => [plain (L "nan") i c; match nth_error e i with Some p => show f (mean p) | None => [] end] | Source s => [nth i s []] end) (columns t)
  else map (plain (L "...") i) (columns t).
Definition ascii_table (sep : str) (t : table) : @res str :=
  let ti := if with_errors t then flat_map (fun x => [x; x ++ L "_err"]) (titles t) else titles t in
  let cap := match caption t with Some (a :: c) => map (cons "#"%char) (split_on nl (a :: c)) | _ => [] end in
  match (match details t with Some d => Some (map (fun p => "#"%char :: fst p ++ L ": " ++ snd p) (combine ti d)) | None => option_map (fun n => ["#"%char :: n]) (notes t) end) with
  | Some det => match rows_of t with Ok n => Ok (join [nl] (("#"%char :: join sep ti) :: cap ++ det ++ map (fun i => join sep (ascii_cells t i)) (seq 0 n))) | Raise e => Raise e | OutOfFuel => OutOfFuel end
  | None => Raise NameError
  end.
(** tabformat: ascii, ascii(sep), 3945-3949 *)
Definition separator (f : str) : str := match skipn 5 f with [] => L " " | _ => firstn (List.length f - 7) (skipn 6 f) end.
Fixpoint prefix_b (p s : str) : bool := match p, s with [], _ => true | a :: p, b :: s => Ascii.eqb a b && prefix_b p s | _, [] => false end.
Definition is_source (c : column) : bool := match c with Source _ => true | Data _ _ _ => false end.
(** 3856-3862; 3941-3943: the index is i, not the number after sort, and i is bound only by the loops for a source column (where the sort is not modelled); 4052: self.format *)
Definition table_text (format : str) (t : table) : @res str :=
  if negb (Nat.eqb (List.length (titles t)) (List.length (columns t))) then Raise ValueError else
  if match details t with Some d => negb (Nat.eqb (List.length d) (List.length (columns t))) | None => false end then Raise ValueError else
  if sorted t && negb (existsb is_source (columns t)) then Raise NameError else
  if prefix_b (L "ascii") format then ascii_table (separator format) t else
  if str_eqb format (L "latex") then latex t else
  if str_eqb format (L "deluxetable") then deluxe t else Raise AttributeError.
End Text.
Arguments column : clear implicits.
Arguments table : clear implicits.
