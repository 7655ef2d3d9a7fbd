(** * AngStrModel: angles as text (astropysics/coords/coordsys.py 106-256, 404-405, 458-596).
    Text is a list of ASCII characters; floats are real numbers (a numeral stands for its exact decimal value).
    Not modelled: separators given as a single string, inclzero, seconds formats other than '%0w.nf' (w = n+3, or 2 for
    n = 0, the default being '%05.2f'), range arguments given with a string. *)
From Coq Require Import List Bool Arith Reals ZArith String Ascii.
From Verif Require Import PyBase PubModel AngleModel.
Import ListNotations.
Open Scope R_scope.

(** ** Regular expressions with Python's backtracking matcher (the constructs that occur in 109 and 111) *)
Inductive re :=
| Eps
| Chr (p : ascii -> bool)          (* one character of a class *)
| Many (p : ascii -> bool)         (* greedy repetition of a class *)
| Seq (a b : re)
| Alt (a b : re)                   (* the first alternative is tried first *)
| Grp (n : nat) (a : re)           (* capturing group *)
| Look (a : re)                    (* (?=...), without groups inside *)
| End.                             (* $ (the text has no trailing newline, 190) *)
Definition caps := nat -> option str.
Definition setc (c : caps) (n : nat) (s : str) : caps := fun k => if Nat.eqb k n then Some s else c k.
Definition consumed (s s' : str) : str := firstn (List.length s - List.length s') s.
Fixpoint many (p : ascii -> bool) (s : str) (k : str -> option caps) : option caps :=
  match s with
  | [] => k []
  | a :: r => if p a then match many p r k with Some x => Some x | None => k s end else k s
  end.
(** [run r s c k]: match [r] at the start of [s], then continue with [k] *)
Fixpoint run (r : re) (s : str) (c : caps) (k : str -> caps -> option caps) : option caps :=
  match r with
  | Eps => k s c
  | Chr p => match s with a :: t => if p a then k t c else None | [] => None end
  | Many p => many p s (fun t => k t c)
  | Seq a b => run a s c (fun t d => run b t d k)
  | Alt a b => match run a s c k with Some x => Some x | None => run b s c k end
  | Grp n a => run a s c (fun t d => k t (setc d n (consumed s t)))
  | Look a => match run a s c (fun _ d => Some d) with Some _ => k s c | None => None end
  | End => match s with [] => k [] c | _ => None end
  end.
Definition re_match (r : re) (s : str) : option caps := run r s (fun _ => None) (fun _ c => Some c).

Definition is_digit (a : ascii) : bool := let n := nat_of_ascii a in ((48 <=? n) && (n <=? 57))%nat.
Fixpoint lit (w : str) : re := match w with [] => Eps | [a] => Chr (Ascii.eqb a) | a :: w => Seq (Chr (Ascii.eqb a)) (lit w) end.
Definition opt (r : re) : re := Alt r Eps.
Definition plus (p : ascii -> bool) : re := Seq (Chr p) (Many p).
Definition is_sign (a : ascii) : bool := (a =a "+"%char) || (a =a "-"%char).
Definition is_dot (a : ascii) : bool := a =a "."%char.
Fixpoint alts (l : list re) : re := match l with [] => Eps | [r] => r | r :: l => Alt r (alts l) end.
(** a numeral: digits, and maybe a point and more digits *)
Definition num : re := Seq (plus is_digit) (opt (Seq (Chr is_dot) (Many is_digit))).
(** 109 *)
Definition ahead : re := Look (Seq (plus is_digit) (Seq (lit [":"%char]) (Seq (plus is_digit) (Seq (opt (Chr is_dot)) (Seq (Many is_digit) End))))).
Definition mark1 : re :=
  alts [lit (L "hours"); lit (L "h"); lit (L "degrees"); lit (L "d"); lit (L "radians"); lit (L "rads"); lit (L "rad"); lit (L "r");
        lit (L " "); Seq (lit (L ":")) ahead].
Definition mark2 : re := alts [lit (L "m"); lit (L "'"); lit (L ":"); lit (L " ")].
Definition mark3 : re := alts [lit (L "s"); Chr (Ascii.eqb """"%char); End].
Definition acregex : re :=
  Seq (opt (Seq (opt (Grp 1 (Chr is_sign))) (Seq (Grp 2 num) (Grp 3 mark1))))
 (Seq (opt (Seq (Grp 4 num) (Grp 5 mark2)))
 (Seq (opt (Seq (Grp 6 num) (Grp 7 mark3))) End)).
(** 111: sign, numeral, end *)
Definition decregex : re := Seq (opt (Chr is_sign)) (Seq num End).

(** ** Numerals *)
Definition dig (a : ascii) : nat := (nat_of_ascii a - 48)%nat.
Definition dval (s : str) : nat := fold_left (fun v a => (v * 10 + dig a)%nat) s 0%nat.
(** float() of a numeral *)
Definition pyfloat (s : str) : R :=
  let (a, r) := span is_digit s in
  INR (dval a) + match r with _ :: b => INR (dval b) / 10 ^ List.length b | [] => 0 end.
Definition signed_float (s : str) : R :=
  match s with a :: r => if a =a "-"%char then - pyfloat r else if a =a "+"%char then pyfloat r else pyfloat s | [] => 0 end.

(** ** AngularCoordinate.__init__ 188-256, [inpt] a string, no range *)
Inductive aunit := UHours | UDeg | URad.
Definition is_cap (c : option str) (w : str) : bool := match c with Some s => str_eqb s w | None => false end.
Definition part (c : option str) (f : R) : R := match c with Some s => pyfloat s / f | None => 0 end.
Definition read_angle (sghms : option bool) (radians : bool) (inpt : str) : @res (aunit * R) :=
  let s := strip inpt in
  match re_match decregex s with
  | Some _ => Ok (if radians then URad else UDeg, signed_float s)
  | None =>
      match re_match acregex s with
      | None => Raise ValueError
      | Some c =>
          let v := part (c 2%nat) 1 + part (c 4%nat) 60 + part (c 6%nat) 3600 in
          let v := if is_cap (c 1%nat) (L "-") then - v else v in
          let m := c 3%nat in
          Ok (if is_cap m (L ":") || is_cap m (L " ")
              then match sghms with
                   | None => match c 1%nat with None => UHours | Some _ => UDeg end
                   | Some true => UHours | Some false => UDeg end
              else if is_cap m (L "hours") || is_cap m (L "h") then UHours
              else if is_cap m (L "degrees") || is_cap m (L "d") then UDeg
              else if is_cap m (L "radians") || is_cap m (L "rad") || is_cap m (L "rads") || is_cap m (L "r") then URad
              else if radians then URad else UDeg, v)
      end
  end.
Definition new_from_string (sghms : option bool) (radians : bool) (inpt : str) : @res ang :=
  match read_angle sghms radians inpt with
  | Ok (UHours, v) => Ok (fst (setHours (Ang 0 None) v))
  | Ok (UDeg, v) => Ok (fst (setDeg (Ang 0 None) v))
  | Ok (URad, v) => Ok (fst (setRad (Ang 0 None) v))
  | Raise e => Raise e
  | OutOfFuel => OutOfFuel
  end.

(** ** Printing *)
Fixpoint digits (k n : nat) : str := match k with O => [] | S k => digits k (n / 10) ++ [digit (n mod 10)] end.
(** '%0w.nf' of [su] units of 10^-n, below 100 *)
Definition sec_text (n su : nat) : str :=
  digits 2 (su / 10 ^ n) ++ match n with O => [] | _ => "."%char :: digits n (su mod 10 ^ n) end.
Definition natz (z : Z) : nat := Z.to_nat z.
(** getDmsStr 481-523 with a 3-tuple of separators *)
Definition print_dms (n : nat) (sep : str * str * str) (sign : bool) (a : ang) : str :=
  let p := dmsStr n a in let '(x, y, z) := sep in
  (if p_neg p then L "-" else if sign then L "+" else []) ++
  decimal (natz (p_whole p)) ++ x ++ decimal (natz (p_min p)) ++ y ++ sec_text n (natz (p_sec p)) ++ z.
(** __str__ 404-405; canonical 484-487 *)
Definition str_angle (a : ang) : str := print_dms 2 (L "d", L "'", [""""%char]) true a.
Definition canonical_dms (a : ang) : str := print_dms 2 (L ":", L ":", []) true a.
(** getHmsStr 555-596: str() of each integer; a negative one has its sign *)
Definition decimalz (z : Z) : str := if (z <? 0)%Z then "-"%char :: decimal (natz (- z)) else decimal (natz z).
(** '%0w.nf' of a negative number: the sign takes one place; it is printed even if the digits are all 0 *)
Definition sec_textz (n : nat) (neg : bool) (su : Z) : str :=
  if neg
  then let v := natz (- su) in
       "-"%char :: decimal (v / 10 ^ n) ++ match n with O => [] | _ => "."%char :: digits n (v mod 10 ^ n) end
  else sec_text n (natz su).
Definition print_hms (n : nat) (sep : str * str * str) (a : ang) : str :=
  let '(_, _, s) := getHms a in
  let '(h, m, su) := hmsStr n a in let '(x, y, z) := sep in
  decimalz h ++ x ++ decimalz m ++ y ++ sec_textz n (if Rlt_dec s 0 then true else false) su ++ z.
Definition canonical_hms (a : ang) : str := print_hms 2 (L ":", L ":", []) a.
