(** * TxtModel: tables with a line of field names, astropysics/utils/io.py 461-567 (loadtxt_text_fields)

    Cells, expressions and type codes are arguments: [valid] the codes that numpy.dtype accepts, [conv] the conversion of one text by loadtxt, [cast] the assignment to an element, [ev] eval with the names it is given.  numpy.loadtxt is modelled as far as its documentation goes: a row with another number of columns raises (it is an error of numpy or ignored, depending on its version).  Delimiters and comments are one character.  Empty field names are left out (numpy renames them). *)
From Coq Require Import List Bool String Ascii Arith ZArith.
From Verif Require Import PyBase PubModel IoModel RegModel SexModel.
Import ListNotations.

Section Txt.
Variable cell : Type.
Definition column := list cell.
Inductive value := One (c : cell) | Col (l : column).
Variable valid : str -> bool.
Variable conv : str -> str -> option cell.
Variable cast : str -> cell -> option cell.
Variable ev : str -> list (str * column) -> @res value.
Variable order : list (str * str) -> list (str * str).

(** the line of the fields 512-519: the first line of index at least fieldline - 1; without one [fields] is not defined *)
Definition field_line (lines : list str) (fieldline : Z) : @res str := match nth_error lines (Z.to_nat (fieldline - 1)) with Some l => Ok l | None => Raise NameError end.
(** str.replace of one character by nothing *)
Definition fields_of (com : ascii) (delim : option ascii) (l : str) : list str := splitl delim (without com l).
(** 522-534 *)
Definition colon : ascii := ":"%char.
Record dtypes := DT { full : list (str * str); load : list (str * str); exprs : list (str * str) }.
Fixpoint parse_fields (fs : list str) (d : dtypes) : @res dtypes :=
  match fs with
  | [] => Ok d
  | f :: r => match split_on colon f with
      | [n; c] => parse_fields r (DT (full d ++ [(n, c)]) (load d ++ [(n, c)]) (exprs d))
      | [n; c; e] => parse_fields r (DT (full d ++ [(n, c)]) (load d) (put n e (exprs d)))
      | _ => Raise ValueError
      end
  end.
(** numpy.dtype of a list of fields 536-537: TypeError if a code is not known (538-547 only change the message), ValueError if a name occurs twice *)
Fixpoint check (seen : list str) (l : list (str * str)) : @res unit :=
  match l with [] => Ok tt | (n, c) :: r => if negb (valid c) then Raise TypeError else if existsb (str_eqb n) seen then Raise ValueError else check (n :: seen) r end.
(** numpy.loadtxt 549: what follows the comment character is left out, blank lines are skipped *)
Definition before_comment (com : ascii) (l : str) : str := match PubModel.find [com] l with Some (b, _) => b | None => l end.
Fixpoint conv_row (lt : list (str * str)) (ws : list str) : @res (list cell) :=
  match lt, ws with
  | [], [] => Ok []
  | (_, c) :: lt, w :: ws => match conv c w with None => Raise ValueError | Some x => bindr (conv_row lt ws) (fun xs => Ok (x :: xs)) end
  | _, _ => Raise ValueError
  end.
Definition row_words (com : ascii) (delim : option ascii) (l : str) : list str := match strip (before_comment com l) with [] => [] | s => splitl delim s end.
Fixpoint loadtxt (com : ascii) (delim : option ascii) (lt : list (str * str)) (lines : list str) : @res (list (list cell)) :=
  match lines with
  | [] => Ok []
  | l :: r => match row_words com delim l with
      | [] => loadtxt com delim lt r
      | ws => bindr (conv_row lt ws) (fun x => bindr (loadtxt com delim lt r) (fun xs => Ok (x :: xs)))
      end
  end.
(** the columns of the loaded array *)
Fixpoint columns (lt : list (str * str)) (rows : list (list cell)) : list (str * column) :=
  match lt with [] => [] | (n, _) :: lt => (n, flat_map (fun r => match r with x :: _ => [x] | [] => [] end) rows) :: columns lt (map (@tl cell) rows) end.
(** assignment to a column of n rows 557 *)
Fixpoint cast_all (c : str) (l : column) : @res column := match l with [] => Ok [] | x :: r => match cast c x with None => Raise ValueError | Some y => bindr (cast_all c r) (fun ys => Ok (y :: ys)) end end.
Definition assign (n : nat) (c : str) (v : value) : @res column :=
  match v with
  | One x => cast_all c (repeat x n)
  | Col l => if Nat.eqb (List.length l) n then cast_all c l else match l with [x] => cast_all c (repeat x n) | _ => Raise ValueError end
  end.
Definition code_of (n : str) (l : list (str * str)) : str := match assoc n l with Some c => c | None => [] end.
Fixpoint derive (n : nat) (dt : list (str * str)) (ld : list (str * column)) (es : list (str * str)) (out : list (str * column)) : @res (list (str * column)) :=
  match es with [] => Ok out | (nm, e) :: r => bindr (ev e ld) (fun v => bindr (assign n (code_of nm dt) v) (fun c => derive n dt ld r (put nm c out))) end.
Definition column_named (l : list (str * column)) (n : str) : column := match assoc n l with Some c => c | None => [] end.
(** 461-567; the array is the list of its fields in order; updatedict is given back *)
Definition loadtxt_text_fields (text : str) (fieldline : Z) (com : ascii) (delim : option ascii) (dtypekw : bool) (upd : option (list (str * column))) : option (list (str * column)) * @res (list (str * column)) :=
  if dtypekw then (upd, Raise ValueError) else
  let lines := file_lines text in
  let r := bindr (field_line lines fieldline) (fun l =>
           bindr (parse_fields (fields_of com delim l) (DT [] [] [])) (fun d =>
           bindr (check [] (load d)) (fun _ => bindr (check [] (full d)) (fun _ =>
           bindr (loadtxt com delim (load d) lines) (fun rows =>
           let ld := columns (load d) rows in
           bindr (derive (List.length rows) (full d) ld (order (exprs d)) ld) (fun out =>
           Ok (map (fun x => (fst x, column_named out (fst x))) (full d)))))))) in
  match r with
  | Ok arr => (match upd with None => None | Some u => Some (fold_left (fun u x => put (fst x) (snd x) u) arr u) end, Ok arr)
  | Raise e => (upd, Raise e)
  | OutOfFuel => (upd, OutOfFuel)
  end.
End Txt.
