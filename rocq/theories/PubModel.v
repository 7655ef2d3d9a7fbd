(** * PubModel: the LaTeX parser of astropysics/publication.py

    Text is a list of characters.  The regular expressions of lines 58-74 are written out as the functions that compute their leftmost match (greedy and lazy quantifiers resolved in the order in which Python's backtracking
    matcher tries them).  Node identity and the parent pointers are not represented; [flatteninputs] is False. *)
From Coq Require Import List Bool ZArith String Ascii Arith.
From Verif Require Import PyBase.
Import ListNotations.

Notation str := (list ascii).
Definition L (s : string) : str := list_ascii_of_string s.
Definition ch (s : string) : ascii := match s with String a _ => a | EmptyString => zero end.
Definition bs : ascii := "\"%char.
Definition lb : ascii := "{"%char.
Definition rb : ascii := "}"%char.
Definition lsq : ascii := "["%char.
Definition rsq : ascii := "]"%char.
Definition dollar : ascii := "$"%char.
Definition star : ascii := "*"%char.
Definition nl : ascii := ascii_of_nat 10.
Infix "=a" := Ascii.eqb (at level 70).
(** \w and \s (Python 2 byte strings, no flags); str.isspace is the same set *)
Definition is_word (a : ascii) : bool := let n := nat_of_ascii a in ((48 <=? n) && (n <=? 57) || (65 <=? n) && (n <=? 90) || (97 <=? n) && (n <=? 122) || (n =? 95))%nat.
Definition is_space (a : ascii) : bool := let n := nat_of_ascii a in ((9 <=? n) && (n <=? 13) || (n =? 32))%nat.
Definition opener (a : ascii) : bool := (a =a lb) || (a =a lsq).
Definition closer (a : ascii) : bool := (a =a rb) || (a =a rsq).

(** ** substring search *)
(** [drop p s] is the rest when [s] starts with [p] *)
Fixpoint drop (p s : str) : option str := match p, s with [], _ => Some s | a :: p, b :: s => if a =a b then drop p s else None | _ :: _, [] => None end.
(** the first occurrence: text before it, text after it *)
Fixpoint find (p s : str) : option (str * str) :=
  match drop p s with
  | Some r => Some ([], r)
  | None => match s with [] => None | a :: s => match find p s with Some (x, r) => Some (a :: x, r) | None => None end end
  end.
(** the text before the last occurrence (rindex) *)
Fixpoint rfind (p s : str) : option str :=
  match s with
  | [] => match drop p [] with Some _ => Some [] | None => None end
  | a :: r => match rfind p r with Some x => Some (a :: x) | None => match drop p s with Some _ => Some [] | None => None end end
  end.
Fixpoint str_eqb (a b : str) : bool := match a, b with [], [] => true | x :: a, y :: b => (x =a y) && str_eqb a b | _, _ => false end.
Fixpoint span (f : ascii -> bool) (s : str) : str * str := match s with [] => ([], []) | a :: r => if f a then let (x, y) := span f r in (a :: x, y) else ([], s) end.
Fixpoint count (c : ascii) (s : str) : Z := match s with [] => 0 | a :: r => (if a =a c then 1 else 0) + count c r end%Z.
Definition rstrip (s : str) : str := rev (snd (span is_space (rev s))).
Fixpoint split_on (c : ascii) (s : str) : list str := match s with [] => [[]] | a :: r => if a =a c then [] :: split_on c r else match split_on c r with x :: l => (a :: x) :: l | [] => [[a]] end end.

(** ** _envre 61: \begin{name}...\end{name} or $...$, $$...$$ *)
Definition begin_ : str := L "\begin{".
Definition end_ : str := L "\end{".
(** [name] is what the first group has taken so far; it is extended past a closing brace only if no \end{name} follows *)
Fixpoint env_from (name s : str) : option (str * str * str) :=
  match s with
  | [] => None
  | a :: r => if a =a rb then match find (end_ ++ name ++ [rb]) r with Some (content, rest) => Some (name, content, rest) | None => env_from (name ++ [a]) r end
              else env_from (name ++ [a]) r
  end.
Definition math_at (s : str) : option (str * str) :=
  let close o x r := match r with b :: r' => if b =a dollar then (o ++ x ++ [dollar; dollar], r') else (o ++ x ++ [dollar], r) | [] => (o ++ x ++ [dollar], []) end in
  match s with
  | a :: r => if a =a dollar then
      match r with
      | b :: r2 => if b =a dollar then match find [dollar] r2 with Some (x, r3) => Some (close [dollar; dollar] x r3) | None => Some ([dollar; dollar], r2) end
                   else match find [dollar] r with Some (x, r3) => Some (close [dollar] x r3) | None => None end
      | [] => None
      end else None
  | [] => None
  end.
(** what matches at the start of [s]: is it an environment, the matched text, the rest *)
Definition env_at (s : str) : option (bool * str * str) :=
  match drop begin_ s with
  | Some r => match env_from [] r with Some (name, content, rest) => Some (true, begin_ ++ name ++ [rb] ++ content ++ end_ ++ name ++ [rb], rest) | None => None end
  | None => match math_at s with Some (m, rest) => Some (false, m, rest) | None => None end
  end.
Fixpoint env_search (acc s : str) : option (str * (bool * str * str)) :=
  match env_at s with
  | Some m => Some (acc, m)
  | None => match s with [] => None | a :: r => env_search (acc ++ [a]) r end
  end.
Inductive chunk := CText (s : str) | CEnv (m : str) | CMath (m : str).
(** _envre.split; every match is non-empty, so [n] = length of the text is enough *)
Fixpoint env_split (n : nat) (s : str) : list chunk :=
  match n with
  | O => [CText s]
  | S n => match env_search [] s with None => [CText s] | Some (t, (e, m, rest)) => CText t :: (if e then CEnv m else CMath m) :: env_split n rest end
  end.

(** ** _commandre 65-66: \name*{arg}[arg]... *)
Fixpoint upto (c : ascii) (s : str) : option (str * str) := match s with [] => None | a :: r => if a =a c then Some ([], r) else if a =a nl then None else match upto c r with Some (x, y) => Some (a :: x, y) | None => None end end.
Fixpoint blocks (n : nat) (s : str) : str * str :=
  match n, s with
  | S n, a :: r => if a =a lb then match upto rb r with Some (x, y) => let (z, w) := blocks n y in (lb :: x ++ rb :: z, w) | None => ([], s) end
                   else if a =a lsq then match upto rsq r with Some (x, y) => let (z, w) := blocks n y in (lsq :: x ++ rsq :: z, w) | None => ([], s) end
                   else ([], s)
  | _, _ => ([], s)
  end.
(** after the backslash: the name and the arguments (both as text) and the rest *)
Definition cmd_at (s : str) : option (str * str * str) :=
  let (w, q) := span is_word s in
  match w, q with
  | [], _ | _, [] => None
  | _, c :: q' => if c =a star then
                    match blocks (List.length q') q' with
                    | ([], _) => match q' with d :: _ => if is_word d then Some (w, [], q) else Some (w ++ [star], [], q') | [] => Some (w, [], q) end
                    | (ar, rest) => Some (w ++ [star], ar, rest)
                    end
                  else let (ar, rest) := blocks (List.length q) q in Some (w, ar, rest)
  end.
(** _commandre.split, with the matched name and arguments *)
Inductive piece := PStr (s : str) | PCmd (name args : str).
Fixpoint cmd_split (n : nat) (acc s : str) : list piece :=
  match n, s with
  | S n, a :: r => if a =a bs then match cmd_at r with Some (w, ar, rest) => PStr acc :: PCmd w ar :: cmd_split n [] rest | None => cmd_split n (acc ++ [a]) r end else cmd_split n (acc ++ [a]) r
  | _, _ => [PStr (acc ++ s)]
  end.

(** ** _cmdargsepre 69 and Command.__init__ 612-627 *)
Definition sep_after (s : str) : bool := match snd (span is_space s) with [] => true | a :: _ => opener a end.
Fixpoint split_args (cur s : str) : list str := match s with [] => [cur] | a :: r => if closer a && sep_after r then cur :: split_args [] r else split_args (cur ++ [a]) r end.
Record arg := Arg { required : bool; atext : str }.
Definition make_arg (s : str) : @res arg := match s with a :: r => if a =a lb then Ok (Arg true r) else if a =a lsq then Ok (Arg false r) else Raise ValueError | [] => Raise IndexError end.
Fixpoint mapr {A B} (f : A -> @res B) (l : list A) : @res (list B) :=
  match l with [] => Ok [] | a :: l => match f a with Ok b => match mapr f l with Ok q => Ok (b :: q) | Raise e => Raise e | OutOfFuel => OutOfFuel end | Raise e => Raise e | OutOfFuel => OutOfFuel end end.
Definition make_args (s : str) : @res (list arg) :=
  match s with
  | [] => Ok []
  | _ => let l := split_args [] s in match last l [] with [] => mapr make_arg (removelast l) | _ => Raise ValueError end
  end.

(** ** nodes and their text: __call__ 108-126 and the getSelfText methods *)
Inductive node :=
| Text (s : str) | Newline
| Env (name : str) (children : list node)
| Math (display : bool) (children : list node)
| Cmd (name : str) (args : list arg)
| TCmd (name : str) (c : ascii)
| Decl (pad : str) (cmd : node) (children : list node)
| Comm (text : str) (newline : bool).
Definition print_arg (a : arg) : str := if required a then lb :: atext a ++ [rb] else lsq :: atext a ++ [rsq].
Definition print_cmd (name : str) (args : list arg) : str := bs :: name ++ List.concat (map print_arg args).
Definition msymb (display : bool) : str := if display then [dollar; dollar] else [dollar].
Fixpoint print (n : node) : str :=
  match n with
  | Text s => s
  | Newline => [nl]
  | Env name c => begin_ ++ name ++ [rb] ++ List.concat (map print c) ++ end_ ++ name ++ [rb]
  | Math d c => msymb d ++ List.concat (map print c) ++ msymb d
  | Cmd name args => print_cmd name args
  | TCmd name c => bs :: name ++ [c]
  | Decl pad cmd c => lb :: pad ++ print cmd ++ List.concat (map print c) ++ [rb]
  | Comm t b => "%"%char :: t ++ (if b then [nl] else [])
  end.
Definition prints (l : list node) : str := List.concat (map print l).

(** ** text_to_nodes 866-1014 *)
Definition bindr {A B} (r : @res A) (f : A -> @res B) : @res B := match r with Ok a => f a | Raise e => Raise e | OutOfFuel => OutOfFuel end.
Inductive item := IStr (s : str) | ICmd (name orig : str) (args : list arg) | INode (n : node).
(** 990-1003: the text between commands becomes TeXt and Newline nodes *)
Definition text_nodes (s : str) : list node := match split_on nl s with x :: l => Text x :: flat_map (fun y => [Newline; Text y]) l | [] => [] end.
Inductive it := S_ (s : str) | N_ (n : node).
Definition to_nodes (l : list it) : list node := flat_map (fun i => match i with S_ s => text_nodes s | N_ n => [n] end) l.
Definition to_it (i : item) : it := match i with IStr s => S_ s | ICmd w _ args => N_ (Cmd w args) | INode n => N_ n end.
(** environment_factory 441-454: the name and the content of a matched environment *)
Definition env_parts (m : str) : str * str :=
  match find [lb] m with
  | Some (_, r) => match find [rb] r with Some (name, after) => (name, match rfind (L "\end") after with Some c => c | None => [] end) | None => ([], []) end
  | None => ([], [])
  end.
(** MathMode.__init__ 528-537 *)
Definition math_parts (m : str) : bool * str :=
  match drop [dollar; dollar] m with
  | Some _ => (true, firstn (List.length m - 4) (skipn 2 m))
  | None => (false, firstn (List.length m - 2) (skipn 1 m))
  end.
(** Document.__init__ 467-474 reads the first required argument of every \section *)
Definition document_ok (l : list node) : bool := forallb (fun n => match n with Cmd w args => negb (str_eqb w (L "section") || str_eqb w (L "section*")) || existsb required args | _ => true end) l.
Section Parse.
(** the recursive calls *)
Variable rec : str -> @res (list node).
Definition build_piece (p : piece) : @res item := match p with PStr s => Ok (IStr s) | PCmd w ar => bindr (make_args ar) (fun l => Ok (ICmd w ar l)) end.
Definition build_chunk (c : chunk) : @res (list item) :=
  match c with
  | CText s => mapr build_piece (cmd_split (List.length s) [] s)
  | CEnv m => let (name, content) := env_parts m in bindr (rec content) (fun l => if str_eqb name (L "document") && negb (document_ok l) then Raise IndexError else Ok [INode (Env name l)])
  | CMath m => let (d, content) := math_parts m in bindr (rec content) (fun l => Ok [INode (Math d l)])
  end.
Definition left_ := L "left".
Definition right_ := L "right".
(** 907-939, from the last item to the first *)
Fixpoint fix_lr (l : list item) : @res (list item) :=
  match l with
  | [] => Ok []
  | i :: l =>
    bindr (fix_lr l) (fun tail =>
      match i with
      | ICmd w orig args =>
        if str_eqb w left_ && negb (match args with [] => true | _ => false end)
        then match orig with c :: r => bindr (rec r) (fun ns => Ok (INode (TCmd w c) :: map INode ns ++ tail)) | [] => Raise IndexError end
        else if str_eqb w left_ || str_eqb w right_ then
          match tail with
          | IStr s :: tl => match s with [] => Raise IndexError | c :: s' => if is_space c then Ok (i :: tail) else Ok (INode (TCmd w c) :: (match s' with [] => tl | _ => IStr s' :: tl end)) end
          | _ => Ok (i :: tail)
          end
        else Ok (i :: tail)
      | _ => Ok (i :: tail)
      end)
  end.
(** 942-984: declarations.  [close] looks for the closing brace in one string; [gather] walks over the following items *)
Fixpoint close (nb : nat) (s : str) : option (str * str) :=
  match s with
  | [] => None
  | a :: r => let nb' := if a =a lb then S nb else if a =a rb then (nb - 1)%nat else nb in
              if Nat.eqb nb' 0 then Some ([], r) else match close nb' r with Some (x, y) => Some (a :: x, y) | None => None end
  end.
Inductive gathered := Closed (content : list it) (pos : nat) (left_over : str) | Skipped | Exhausted (content : list it).
Fixpoint gather (l : list it) (pos nb : nat) (acc : list it) (todel : list nat) : gathered * list nat :=
  match l with
  | [] => (Exhausted acc, todel)
  | N_ n :: l => gather l (S pos) nb (acc ++ [N_ n]) todel
  | S_ s :: l => let bc := (count lb s - count rb s)%Z in
                 if (1 <? Z.of_nat nb + bc)%Z then gather l (S pos) (Z.to_nat (Z.of_nat nb + bc)) (acc ++ [S_ s]) (todel ++ [pos])
                 else match close nb s with Some (x, y) => (Closed (acc ++ [S_ x]) pos y, todel) | None => (Skipped, todel) end
  end.
Definition is_command (n : node) : bool := match n with Cmd _ _ | TCmd _ _ => true | _ => false end.
Definition ends_brace (s : str) : bool := match rev (rstrip s) with a :: _ => a =a lb | [] => false end.
Definition starts_space (s : str) : bool := match s with a :: _ => is_space a | [] => false end.
Definition set_it (i : nat) (x : it) (l : list it) : list it := set_nth i x l.
(** EnclosedDeclaration.__init__ 726-746 on a list of strings and nodes *)
Definition decl_children (c : list it) : @res (list node) := bindr (mapr (fun e => match e with S_ s => rec s | N_ n => Ok [n] end) c) (fun l => Ok (List.concat l)).
Definition make_decl (i : nat) (cmd : node) (prev : str) (content : list it) (l : list it) : @res (list it) :=
  let before := match rfind [lb] prev with Some x => x | None => [] end in
  let pad := skipn (S (List.length before)) prev in
  bindr (decl_children content) (fun ns => Ok (set_it i (N_ (Decl pad cmd ns)) (set_it (i - 1) (S_ before) l))).
Definition decl_step (i : nat) (l : list it) (todel : list nat) : @res (list it * list nat) :=
  match nth_error l (i - 1), nth_error l i, nth_error l (S i) with
  | Some (S_ p), Some (N_ c), Some (S_ q) =>
    if is_command c && ends_brace p && starts_space q then
      match gather (skipn (S i) l) (S i) 1 [] todel with
      | (Closed content pos rest, td) => bindr (make_decl i c p content (set_it pos (S_ rest) l)) (fun l' => Ok (l', td))
      | (Exhausted content, td) => bindr (make_decl i c p content l) (fun l' => Ok (l', td))
      | (Skipped, td) => Ok (l, td)
      end
    else Ok (l, todel)
  | _, _, _ => Ok (l, todel)
  end.
Fixpoint decl_loop (is : list nat) (l : list it) (todel : list nat) : @res (list it * list nat) := match is with [] => Ok (l, todel) | i :: is => bindr (decl_step i l todel) (fun p => decl_loop is (fst p) (snd p)) end.
Fixpoint del_all (is : list nat) (l : list it) : @res (list it) := match is with [] => Ok l | i :: is => if Nat.ltb i (List.length l) then del_all is (remove_at i l) else Raise IndexError end.
Definition decls (l : list it) : @res (list it) := bindr (decl_loop (seq 1 (List.length l - 2)) l []) (fun p => del_all (rev (snd p)) (fst p)).
End Parse.
Fixpoint parse (n : nat) (t : str) : @res (list node) :=
  match n with
  | O => OutOfFuel
  | S n => bindr (mapr (build_chunk (parse n)) (env_split (List.length t) t)) (fun cs =>
           bindr (fix_lr (parse n) (List.concat cs)) (fun l =>
           bindr (decls (parse n) (map to_it l)) (fun l => Ok (to_nodes l))))
  end.
Definition text_to_nodes (t : str) : @res (list node) := parse (S (List.length t)) t.

(** ** TeXFile 177-276 *)
(** Preamble 762-841: reading \documentclass assigns its options back, which joins them and puts the required argument last *)
Fixpoint join (sep : str) (l : list str) : str := match l with [] => [] | [x] => x | x :: r => x ++ sep ++ join sep r end.
Definition reqargs (l : list arg) : list str := map atext (filter required l).
Definition optargs (l : list arg) : list str := map atext (filter (fun a => negb (required a)) l).
(** Command._setReqargs 631-640 and _setOptargs 650-659: in place when the number agrees, otherwise removed and appended *)
Fixpoint assign (b : bool) (vals : list str) (l : list arg) : list arg :=
  match l with
  | [] => []
  | a :: l => if Bool.eqb (required a) b then match vals with v :: vs => Arg b v :: assign b vs l | [] => a :: assign b [] l end else a :: assign b vals l
  end.
Definition set_args (b : bool) (vals : list str) (l : list arg) : list arg :=
  if Nat.eqb (List.length (filter (fun a => Bool.eqb (required a) b) l)) (List.length vals) then assign b vals l
  else filter (fun a => negb (Bool.eqb (required a) b)) l ++ map (Arg b) vals.
Definition strip (s : str) : str := rstrip (snd (span is_space s)).
Fixpoint first_required (l : list arg) (i : nat) : option nat := match l with [] => None | a :: r => if required a then Some i else first_required r (S i) end.
Definition set_docclassopts (val : str) (l : list arg) : @res (list arg) :=
  if Nat.ltb 1 (List.length (optargs l)) then Raise AssertionError else
  let l := set_args false (match strip val with [] => [] | _ => [val] end) l in
  match first_required l 0 with
  | None => Raise TypeError
  | Some i => if Nat.eqb i (List.length l - 1) then Ok l else Ok (remove_at i l ++ match nth_error l i with Some a => [a] | None => [] end)
  end.
Definition preamble_node (n : node) : @res node :=
  match n with
  | Cmd w args =>
    if str_eqb w (L "documentclass") then
      match reqargs args with
      | [] => Raise IndexError
      | r :: rs => match rs with
                   | _ :: _ => Raise AssertionError
                   | [] => bindr (set_docclassopts (join [","%char] (optargs args)) (set_args true [r] args)) (fun a => Ok (Cmd w a))
                   end
      end
    else if str_eqb w (L "usepackage") then match reqargs args with [] => Raise IndexError | _ => Ok n end
    else Ok n
  | _ => Ok n
  end.
Definition preamble (t : str) : @res (list node) := bindr (text_to_nodes t) (mapr preamble_node).
(** comments: [mk] is the command name chosen at 213-217, the first of astppubcomment, astppubcomment0, ... that is not in the text *)
Definition mem (p s : str) : bool := match find p s with Some _ => true | None => false end.
Fixpoint comment_at (prev : option ascii) (acc s : str) : option (str * str) :=
  match s with
  | [] => None
  | a :: r => if (a =a "%"%char) && negb (match prev with Some b => b =a bs | None => false end) then Some (acc, s) else comment_at (Some a) (acc ++ [a]) r
  end.
Definition digit (n : nat) : ascii := ascii_of_nat (48 + n).
Fixpoint decimal_go (fuel n : nat) : str := match fuel with O => [] | S f => if Nat.ltb n 10 then [digit n] else decimal_go f (n / 10) ++ [digit (n mod 10)] end.
Definition decimal (n : nat) : str := decimal_go (S n) n.
(** 213-217: [fuel] bounds the number of names tried *)
Fixpoint search (fuel i : nat) (name f : str) : option str := match fuel with O => None | S n => if mem name f then search n (S i) (L "astppubcomment" ++ decimal i) f else Some name end.
Fixpoint extract (mk : str) (lines : list str) (k : nat) : list str * list str :=
  match lines with
  | [] => ([], [])
  | l :: r => match comment_at None [] l with
              | Some (before, com) => let (ls, cs) := extract mk r (S k) in ((before ++ bs :: mk ++ lb :: decimal k ++ [rb]) :: ls, com :: cs)
              | None => let (ls, cs) := extract mk r k in (l :: ls, cs)
              end
  end.
Fixpoint split_document (lines : list str) : list str * option (list str) :=
  match lines with
  | [] => ([], None)
  | l :: r => if mem (L "\begin{document}") l then ([], Some lines) else let (p, c) := split_document r in (l :: p, c)
  end.
(** _addin_comments 278-310.  [coms] looks up a comment; the state is what precedes: last2 and last (after replacement).  A deleted child is marked. *)
Definition new_comment (t : str) : node := let t := match t with a :: r => if a =a "%"%char then r else t | [] => t end in Comm t false.
Definition parse_index (s : str) : option nat := fold_left (fun o a => match o with Some v => let n := nat_of_ascii a in if ((48 <=? n) && (n <=? 57))%nat then Some (v * 10 + (n - 48))%nat else None | None => None end) s (match s with [] => None | _ => Some O end).
Definition is_comment (n : node) : bool := match n with Comm _ _ => true | _ => false end.
Definition is_text (n : node) : bool := match n with Text _ | Newline => true | _ => false end.
Definition is_empty_text (n : node) : bool := match n with Text [] => true | _ => false end.
Definition is_newline (n : node) : bool := match n with Newline => true | _ => false end.
Section Addin.
Variable mk : str.
Variable coms : list str.
(** the list of children, left to right; [done] is reversed and holds (node, deleted) *)
Fixpoint addin_node (n : node) : @res node :=
  let fix go (l : list node) (done : list (node * bool)) {struct l} : @res (list node) :=
    match l with
    | [] => Ok (rev (map fst (filter (fun p => negb (snd p)) done)))
    | c :: l =>
      let last := match done with (x, _) :: _ => Some x | [] => None end in
      let last2 := match done with _ :: (x, _) :: _ => Some x | _ => None end in
      let d1 := match last with Some x => is_comment x && is_empty_text c | None => false end in
      let d2 := negb d1 && match last2, last with Some x, Some y => is_comment x && is_text y && is_newline c | _, _ => false end in
      let done := if d2 then match done with y :: (Comm t _, f) :: r => y :: (Comm t true, f) :: r | _ => done end else done in
      match addin_node c with
      | Ok c' => go l ((c', d1 || d2) :: done)
      | Raise e => Raise e
      | OutOfFuel => OutOfFuel
      end
    end in
  match n with
  | Env w l => match go l [] with Ok l' => Ok (Env w l') | Raise e => Raise e | OutOfFuel => OutOfFuel end
  | Math d l => match go l [] with Ok l' => Ok (Math d l') | Raise e => Raise e | OutOfFuel => OutOfFuel end
  | Decl p c l => match go l [] with Ok l' => Ok (Decl p c l') | Raise e => Raise e | OutOfFuel => OutOfFuel end
  | Cmd w args => if str_eqb w mk then match reqargs args with [] => Raise IndexError | r :: _ => match parse_index r with None => Raise ValueError | Some k => match nth_error coms k with Some t => Ok (new_comment t) | None => Raise IndexError end end end else Ok n
  | _ => Ok n
  end.
Definition addin (l : list node) : @res (list node) := match addin_node (Math false l) with Ok (Math _ l') => Ok l' | Ok _ => Ok [] | Raise e => Raise e | OutOfFuel => OutOfFuel end.
End Addin.
(** _parse 203-261: the children of the file (the preamble's children first, printed without anything around them) *)
Definition texfile (mk f : str) : @res (list node * list node) :=
  let (lines, coms) := extract mk (split_on nl f) 0 in
  match split_document lines with
  | (_, None) => Raise TypeError
  | (p, Some c) =>
    bindr (preamble (join [nl] p ++ [nl])) (fun pre =>
    bindr (text_to_nodes (join [nl] c)) (fun ns =>
    bindr (addin mk coms pre) (fun pre' => bindr (addin mk coms ns) (fun ns' => Ok (pre', ns')))))
  end.
Definition file_text (mk f : str) : @res str := bindr (texfile mk f) (fun p => Ok (prints (fst p) ++ prints (snd p))).
