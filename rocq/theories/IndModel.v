(** * IndModel: astropysics/utils/gen.py 412-455 (change_indentation).
    Strings are lists of bytes.  The indentation is the string itself or, for a number, so many spaces;
    a backslash in it (an escape of re.sub's template) is not modelled. *)
From Coq Require Import List Arith Bool Ascii.
Import ListNotations.

Definition nl : ascii := "010". Definition cr : ascii := "013". Definition sp : ascii := " ".
(** str.strip and \s: space, tab, newline, vertical tab, form feed, return *)
Definition ws (c : ascii) : bool := let n := nat_of_ascii c in Nat.eqb n 32 || (Nat.leb 9 n && Nat.leb n 13).
Definition is (a c : ascii) : bool := Ascii.eqb a c.

Fixpoint count_sp (s : list ascii) : nat := match s with c :: r => if is sp c then S (count_sp r) else 0 | [] => 0 end.
(** the regular expression 415 (optionally a newline and a return, then spaces, then a character that is not white space),
    matched at the start, and the length of its group of spaces (442) *)
Definition find_dedent (s : list ascii) : option nat :=
  let t := match s with
           | a :: r => if is nl a then match r with b :: r' => if is cr b then r' else r | [] => r end else s
           | [] => s
           end in
  match skipn (count_sp t) t with
  | c :: _ => if ws c then None else Some (count_sp t)
  | [] => None
  end.
(** re.sub of a newline, an optional return and at most n spaces by newline and indentation (450, 453): copying, just after the newline, [k] spaces left to drop *)
Inductive mode := Copy | AfterNl | Drop (k : nat).
Fixpoint sub (n : nat) (ind : list ascii) (m : mode) (s : list ascii) : list ascii :=
  match s with
  | [] => []
  | c :: r =>
      let copy := if is nl c then nl :: ind ++ sub n ind AfterNl r else c :: sub n ind Copy r in
      let drop k := match k with S k' => if is sp c then sub n ind (Drop k') r else copy | 0 => copy end in
      match m with
      | Copy => copy
      | AfterNl => if is cr c then sub n ind (Drop n) r else drop n
      | Drop k => drop k
      end
  end.
Fixpoint lstrip (s : list ascii) : list ascii := match s with c :: r => if ws c then lstrip r else s | [] => [] end.
Definition rstrip (s : list ascii) : list ascii := rev (lstrip (rev s)).
(** change_indentation 433-454; [None] is None *)
Definition change_indentation (s : option (list ascii)) (ind : list ascii) : list ascii :=
  match s with
  | None | Some [] => []
  | Some s =>
      match find_dedent s with
      | None | Some 0 => s
      | Some (S k) => rstrip (lstrip (sub (S k) ind Copy s))
      end
  end.
Definition change_indentation_n (s : option (list ascii)) (ind : nat) : list ascii := change_indentation s (repeat sp ind).
