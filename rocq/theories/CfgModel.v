(** * CfgModel: configuration files, external/configobj.py as config.py 744-772 uses it (no options, byte strings, no sections).
    What is outside of the model (sections, values over several lines, byte order marks) is the outcome [Unmodelled]. *)
From Coq Require Import List Bool Arith Ascii String.
From Verif Require Import PyBase PubModel.
Import ListNotations.

(** ** Regular expressions with backtracking, in the order in which sre tries *)
Inductive rx :=
| RChr (p : ascii -> bool) | RMany (p : ascii -> bool) (* greedy *) | RLazy (p : ascii -> bool)
| RSeq (a b : rx) | RAlt (a b : rx) | RStar (a : rx) (* greedy *) | RGrp (n : nat) (a : rx) | REps | REnd | RNotAfter (p : ascii -> bool).
Definition caps := list (nat * str).
Fixpoint cap (n : nat) (c : caps) : option str := match c with [] => None | (m, s) :: r => if Nat.eqb n m then Some s else cap n r end.
Definition taken (s t : str) : str := firstn (List.length s - List.length t) s.
Section Run.
Context {X : Type}.
Definition kont := option ascii -> str -> caps -> option X.
Definition orelse (a b : option X) : option X := match a with Some x => Some x | None => b end.
Fixpoint many (p : ascii -> bool) (pr : option ascii) (s : str) (c : caps) (k : kont) : option X :=
  match s with a :: r => if p a then orelse (many p (Some a) r c k) (k pr s c) else k pr s c | [] => k pr s c end.
Fixpoint lazy (p : ascii -> bool) (pr : option ascii) (s : str) (c : caps) (k : kont) : option X :=
  orelse (k pr s c) (match s with a :: r => if p a then lazy p (Some a) r c k else None | [] => None end).
Fixpoint star (f : option ascii -> str -> caps -> kont -> option X) (n : nat) (pr : option ascii) (s : str) (c : caps) (k : kont) : option X :=
  match n with O => k pr s c | S n => orelse (f pr s c (fun pr' s' c' => if Nat.ltb (List.length s') (List.length s) then star f n pr' s' c' k else None)) (k pr s c) end.
(** [pr] is the character before the text *)
Fixpoint run (r : rx) (pr : option ascii) (s : str) (c : caps) (k : kont) : option X :=
  match r with
  | RChr p => match s with a :: t => if p a then k (Some a) t c else None | [] => None end
  | RMany p => many p pr s c k
  | RLazy p => lazy p pr s c k
  | RSeq a b => run a pr s c (fun pr s c => run b pr s c k)
  | RAlt a b => orelse (run a pr s c k) (run b pr s c k)
  | RStar a => star (run a) (List.length s) pr s c k
  | RGrp n a => run a pr s c (fun pr t c => k pr t ((n, taken s t) :: c))
  | REps => k pr s c
  | REnd => match s with [] => k pr s c | _ => None end
  | RNotAfter p => match pr with Some a => if p a then None else k pr s c | None => k pr s c end
  end.
End Run.
Definition rmatch (r : rx) (s : str) : option caps := run r None s [] (fun _ _ c => Some c).
Definition is (x a : ascii) : bool := Ascii.eqb a x.
Definition dq : ascii := """"%char.
Definition sq : ascii := "'"%char.
Definition comma : ascii := ","%char.
Definition hash : ascii := "#"%char.
Definition dot (a : ascii) : bool := negb (is nl a).
Definition none_of (l : str) (a : ascii) : bool := negb (existsb (is a) l).
Definition lit1 (x : ascii) : rx := RChr (is x).
Fixpoint seqs (l : list rx) : rx := match l with [] => REps | [r] => r | r :: l => RSeq r (seqs l) end.
Fixpoint alts (l : list rx) : rx := match l with [] => REps | [r] => r | r :: l => RAlt r (alts l) end.
Definition ropt (r : rx) : rx := RAlt r REps.
Definition dquoted : rx := seqs [lit1 dq; RLazy dot; lit1 dq].
Definition squoted : rx := seqs [lit1 sq; RLazy dot; lit1 sq].
(** \s*(#.* )?$ *)
Definition comment_end (n : nat) : rx := seqs [RMany is_space; ropt (RGrp n (seqs [lit1 hash; RMany dot])); REnd].
(** _keyword 1087-1098 *)
Definition keyword : rx := seqs [RGrp 1 (RMany is_space); RGrp 2 (alts [dquoted; squoted; seqs [RChr (none_of [sq; dq; "="%char]); RLazy dot]]);
  RMany is_space; lit1 "="%char; RMany is_space; RGrp 3 (RMany dot); REnd].
(** _sectionmarker 1100-1111 *)
Definition marker : rx :=
  let name q := seqs [lit1 q; RMany is_space; RChr (fun a => negb (is_space a)); RLazy dot; RMany is_space; lit1 q] in
  let opening := seqs [lit1 "["%char; RMany is_space] in let closing := seqs [RMany is_space; lit1 "]"%char] in
  seqs [RMany is_space; opening; RStar opening; alts [name dq; name sq; seqs [RChr (fun a => none_of [sq; dq] a && negb (is_space a)); RLazy dot]]; closing; RStar closing; comment_end 5].
(** _valueexp 1117-1140 *)
Definition item : rx := seqs [alts [dquoted; squoted; seqs [RChr (none_of [sq; dq; comma; hash]); RLazy (none_of [comma; hash])]]; RMany is_space; lit1 comma; RMany is_space].
Definition valueexp : rx :=
  seqs [RAlt (seqs [RGrp 1 (RStar item); ropt (RGrp 2 (alts [dquoted; squoted; seqs [RChr (fun a => none_of [sq; dq; comma; hash] a && negb (is_space a)); RLazy (none_of [comma])]; RNotAfter (is comma)]))])
             (RGrp 3 (lit1 comma)); comment_end 4].
(** _listvalueexp 1143-1151 *)
Definition listvalueexp : rx := seqs [RGrp 1 (alts [dquoted; squoted; seqs [ropt (RChr (none_of [sq; dq; comma; hash])); RLazy dot]]); RMany is_space; lit1 comma; RMany is_space].
(** findall: from each place on; no match is empty here *)
Fixpoint findall (fuel : nat) (r : rx) (pr : option ascii) (s : str) : list str :=
  match fuel with
  | O => []
  | S n => match run r pr s [] (fun pr t c => Some (pr, t, c)) with
           | Some (pr, t, c) => match cap 1 c with Some x => x | None => [] end :: findall n r pr t
           | None => match s with [] => [] | a :: t => findall n r (Some a) t end
           end
  end.
(** _single_line_single, _single_line_double 1166-1167 *)
Definition triple (q : ascii) : rx := seqs [lit1 q; lit1 q; lit1 q; RGrp 1 (RLazy dot); lit1 q; lit1 q; lit1 q; comment_end 2].

(** ** Objects *)
Inductive value := Str (s : str) | Lst (l : list str).
Record entry := Entry { ekey : str; evalue : value; ecomments : list str; einline : str (* '' or None: [] *) }.
Record cfg := Cfg { initial : list str; entries : list entry; final : list str; indent : option str }.
(** [Failed n]: n errors were found, 1317-1328 *)
Inductive outcome (A : Type) := Done (a : A) | Failed (n : nat) | Unmodelled.
Arguments Done {A}. Arguments Failed {A} n. Arguments Unmodelled {A}.
Definition ConfigObjError : exn := UserExn 7.

(** ** Reading *)
(** _unquote 1739-1746; SyntaxError *)
Definition unquote (s : str) : option str := match s with [] => None | a :: _ => Some (if Ascii.eqb a (last s a) && (is dq a || is sq a) then removelast (tl s) else s) end.
Fixpoint mapO {A B} (f : A -> option B) (l : list A) : option (list B) := match l with [] => Some [] | a :: r => match f a, mapO f r with Some b, Some k => Some (b :: k) | _, _ => None end end.
Definition text_of (o : option str) : str := match o with Some s => s | None => [] end.
(** _handle_value 1838-1884; None: SyntaxError *)
Definition handle_value (v : str) : option (value * str) :=
  match rmatch valueexp v with
  | None => None
  | Some c =>
      let comment := text_of (cap 4 c) in
      match cap 1 c, cap 2 c, cap 3 c with
      | Some [], None, _ => None
      | _, _, Some _ => Some (Lst [], comment)
      | l, single, None =>
          let single := match single with Some s => match l, s with Some (_ :: _), [] => Some None | _, [] => option_map Some (unquote [dq; dq]) | _, _ => option_map Some (unquote s) end | None => Some None end in
          match l, single with
          | _, None => None
          | Some [], Some (Some s) => Some (Str s, comment)
          | Some l, Some s => match mapO unquote (findall (S (List.length l)) listvalueexp None l) with Some k => Some (Lst (k ++ match s with Some s => [s] | None => [] end), comment) | None => None end
          | None, Some _ => None
          end
      end
  end.
(** str.splitlines and rstrip of the ends *)
Definition cr : ascii := ascii_of_nat 13.
Fixpoint splitlines (acc : str) (s : str) : list str :=
  match s with
  | [] => match acc with [] => [] | _ => [rev acc] end
  | a :: r => if is nl a then rev acc :: splitlines [] r else if is cr a then rev acc :: (match r with b :: r' => if is nl b then splitlines [] r' else splitlines [] r | [] => [] end) else splitlines (a :: acc) r
  end.
Definition skipped (line : str) : bool := match strip line with [] => true | a :: _ => is hash a end.
Definition has_key (k : str) (l : list entry) : bool := existsb (fun e => str_eqb k (ekey e)) l.
(** the value and comment of a line, with the three quotes first, 1615-1660 *)
Definition line_value (v : str) : outcome (value * str) :=
  let q := match v with a :: b :: c :: _ => if Ascii.eqb a b && Ascii.eqb b c && (is dq a || is sq a) then Some a else None | _ => None end in
  match q with
  | Some q => match rmatch (triple q) v with Some c => Done (Str (text_of (cap 1 c)), text_of (cap 2 c)) | None => Unmodelled end
  | None => match handle_value v with Some r => Done r | None => Failed 1 end
  end.
(** _parse 1533-1698: lines, the comments collected, whether they are to be dropped, whether an entry was seen, the number of errors *)
Fixpoint parse (lines : list str) (coms : list str) (reset started : bool) (errors : nat) (o : cfg) : outcome cfg :=
  match lines with
  | [] => if Nat.ltb 0 errors then Failed errors
          else match entries o, initial o with
               | [], [] => Done (Cfg coms [] (final o) (match indent o with None => Some [] | i => i end))
               | es, ini => Done (Cfg ini es (if reset then final o else coms) (match indent o with None => Some [] | i => i end))
               end
  | line :: rest =>
      let coms := if reset then [] else coms in
      if skipped line then parse rest (coms ++ [line]) false started errors o
      else
        let ini := if started then initial o else coms in let coms := if started then coms else [] in
        match rmatch marker line with
        | Some _ => Unmodelled
        | None =>
            match rmatch keyword line with
            | None => parse rest coms true true (S errors) (Cfg ini (entries o) (final o) (indent o))
            | Some c =>
                let ind := match text_of (cap 1 c), indent o with _ :: _, None => cap 1 c | _, i => i end in
                match line_value (text_of (cap 3 c)) with
                | Unmodelled => Unmodelled
                | Failed _ => parse rest coms true true (S errors) (Cfg ini (entries o) (final o) ind)
                | Done (v, com) =>
                    match unquote (text_of (cap 2 c)) with
                    | None => Unmodelled
                    | Some k => if has_key k (entries o) then parse rest coms true true (S errors) (Cfg ini (entries o) (final o) ind)
                                else parse rest coms true true errors (Cfg ini (entries o ++ [Entry k v coms com]) (final o) ind)
                    end
                end
            end
        end
  end.
Definition empty_cfg : cfg := Cfg [] [] [] None.
(** 1385-1484: byte order marks *)
Definition bom (s : str) : bool := match map nat_of_ascii (firstn 3 s) with [239; 187; 191] => true | 254 :: 255 :: _ => true | 255 :: 254 :: _ => true | _ => false end.
(** ConfigObj(fn), 1187-1340; no file is an empty one *)
Definition load (file : option str) : outcome cfg :=
  match file with
  | None | Some [] => parse [] [] false false 0 empty_cfg
  | Some s => if bom s then Unmodelled else parse (splitlines [] s) [] false false 0 empty_cfg
  end.

(** ** Writing *)
Definition mem (a : ascii) (s : str) : bool := existsb (is a) s.
(** wspace_plus 79 *)
Definition wspace_plus : str := [" "%char; cr; nl; ascii_of_nat 11; ascii_of_nat 9; sq; dq].
Definition quoted (q : ascii) (s : str) : str := q :: s ++ [q].
(** _get_single_quote 1818-1825 *)
Definition single_quote (s : str) : @res str := if mem sq s && mem dq s then Raise ConfigObjError else if mem dq s then Ok (quoted sq s) else Ok (quoted dq s).
(** _quote 1749-1815 with multiline off *)
Definition quote1 (s : str) : @res str :=
  match s with
  | [] => Ok [dq; dq]
  | a :: _ => if mem nl s then Raise ConfigObjError
              else if negb (mem a wspace_plus) && negb (mem (last s a) wspace_plus) && negb (mem comma s) then (if mem hash s then single_quote s else Ok s)
              else single_quote s
  end.
Fixpoint prefix (p s : str) {struct p} : bool := match p, s with [], _ => true | a :: p, b :: s => Ascii.eqb a b && prefix p s | _ :: _, [] => false end.
Fixpoint contains (p s : str) {struct s} : bool := prefix p s || match s with [] => false | _ :: r => contains p r end.
(** _get_triple_quote 1828-1835: tdquot are three single quotes *)
Definition triple_quote (s : str) : @res str :=
  if contains [dq; dq; dq] s && contains [sq; sq; sq] s then Raise ConfigObjError
  else let q := if contains [dq; dq; dq] s then dq else sq in Ok ([q; q; q] ++ s ++ [q; q; q]).
Fixpoint quote_all (l : list str) : @res (list str) := match l with [] => Ok [] | s :: r => match quote1 s with Ok x => match quote_all r with Ok k => Ok (x :: k) | Raise e => Raise e | OutOfFuel => OutOfFuel end | Raise e => Raise e | OutOfFuel => OutOfFuel end end.
Definition quote (v : value) : @res str :=
  match v with
  | Lst [] => Ok [comma]
  | Lst [s] => match quote1 s with Ok x => Ok (x ++ [comma]) | Raise e => Raise e | OutOfFuel => OutOfFuel end
  | Lst l => match quote_all l with Ok k => Ok (join (L ", ") k) | Raise e => Raise e | OutOfFuel => OutOfFuel end
  | Str [] => Ok [dq; dq]
  | Str s => if mem sq s && mem dq s || mem nl s then triple_quote s else quote1 s
  end.
(** _handle_comment 1994-2001, DEFAULT_INDENT_TYPE 121 and _write_line 1971-1982 *)
Definition inline (o : cfg) (c : str) : str := match c with [] => [] | a :: _ => (match indent o with Some i => i | None => L "    " end) ++ (if is hash a then [] else L " # ") ++ c end.
Definition write_line (o : cfg) (e : entry) : @res str :=
  match quote1 (ekey e), quote (evalue e) with
  | Ok k, Ok v => Ok (k ++ L " = " ++ v ++ inline o (einline e))
  | Ok _, Raise e | Raise e, _ => Raise e
  | Ok _, OutOfFuel | OutOfFuel, _ => OutOfFuel
  end.
(** 2032-2037, 2044-2048: a comment line without # gets one *)
Definition comment_line (l : str) : str := match strip l with [] => l | a :: _ => if is hash a then l else L "# " ++ l end.
Fixpoint write_entries (o : cfg) (es : list entry) : @res (list str) :=
  match es with
  | [] => Ok []
  | e :: r => match write_line o e with
              | Ok x => match write_entries o r with Ok k => Ok (map (fun l => comment_line (snd (span is_space l))) (ecomments e) ++ x :: k) | Raise e => Raise e | OutOfFuel => OutOfFuel end
              | Raise e => Raise e | OutOfFuel => OutOfFuel
              end
  end.
(** write 2006-2113, newlines taken to be one character *)
Definition ends_nl (s : str) : bool := match rev s with a :: _ => is nl a | [] => false end.
Definition dump (o : cfg) : @res str :=
  match write_entries o (entries o) with
  | Ok k => let out := join [nl] (map comment_line (initial o) ++ k ++ map comment_line (final o)) in Ok (if ends_nl out then out else out ++ [nl])
  | Raise e => Raise e | OutOfFuel => OutOfFuel
  end.
(** __setitem__ 582-638, __delitem__ 641-649 *)
Fixpoint assign (k : str) (v : value) (es : list entry) : list entry :=
  match es with [] => [Entry k v [] []] | e :: r => if str_eqb k (ekey e) then Entry (ekey e) v (ecomments e) (einline e) :: r else e :: assign k v r end.
Definition set_item (k : str) (v : value) (o : cfg) : cfg := Cfg (initial o) (assign k v (entries o)) (final o) (indent o).
Definition del_item (k : str) (o : cfg) : @res cfg := if has_key k (entries o) then Ok (Cfg (initial o) (filter (fun e => negb (str_eqb k (ekey e))) (entries o)) (final o) (indent o)) else Raise KeyError.
