(** * PlotModel: the plots of a project script, astropysics/data/project_template.py 97-440

    Text is a list of characters.  Figures are not drawn: a plot function raises or not, depending on its arguments; a file that is saved holds the figure of that name.  Directories exist and can be written to.  Not modelled: tweakbbox, mayavi scenes (its figures behave like the others), printing.  The order in which a Python 2 dictionary or set is gone through is an argument ([order]). *)
From Coq Require Import List Bool String Ascii Arith.
From Verif Require Import PyBase PubModel IoModel RegModel.
Import ListNotations.

Section Plot.
Variable val : Type.
(** a function with named arguments or with ** *)
Inductive pfun := Args (names : list str) (f : list val -> option exn) | Kw (f : list (str * val) -> option exn).
(** _plotreg 98 (the size of the figure is left out) and _mainfigs 99; the key None is True *)
Record plots := PR { plotreg : list (str * (pfun * str)); mainfigs : list (option str * list str) }.
Definition inside (p s : str) : bool := match find p s with Some _ => true | None => false end.
Definition key_eqb (a b : option str) : bool := match a, b with None, None => true | Some x, Some y => str_eqb x y | _, _ => false end.
Fixpoint mainget (k : option str) (d : list (option str * list str)) : option (list str) := match d with [] => None | (k', v) :: r => if key_eqb k k' then Some v else mainget k r end.
Fixpoint mainadd (k : option str) (n : str) (d : list (option str * list str)) : list (option str * list str) := match d with [] => [(k, [n])] | (k', v) :: r => if key_eqb k k' then (k', v ++ [n]) :: r else (k', v) :: mainadd k n r end.
(** plotfunc 101-151; an empty text as mainfig counts as False *)
Inductive mainarg := NotMain | Main | Group (g : str).
Definition plotfunc (st : plots) (name : str) (f : pfun) (figtype : str) (m : mainarg) : plots * @res unit :=
  if negb (inside (L "mpl") figtype) && negb (inside (L "mayavi") figtype) then (st, Raise ValueError) else
  (PR (put name (f, figtype) (plotreg st)) (match m with NotMain | Group [] => mainfigs st | Main => mainadd None name (mainfigs st) | Group g => mainadd (Some g) name (mainfigs st) end), Ok tt).

(** the regular expression of a pattern with stars 227-231: it need not reach the end of the name *)
Definition star : ascii := "*"%char.
Fixpoint rmatch (p s : str) : bool :=
  match p with
  | [] => true
  | c :: p' => if c =a star then (fix any (s : str) : bool := rmatch p' s || match s with [] => false | _ :: r => any r end) s
               else match s with a :: r => (a =a c) && rmatch p' r | [] => false end
  end.
Inductive selection := All | Names (s : str) | NameList (l : list str).
Definition select (st : plots) (p : selection) : list str :=
  match p with
  | All => map fst (plotreg st)
  | Names s => if existsb (fun a => a =a star) s then filter (rmatch s) (map fst (plotreg st)) else split_on ","%char s
  | NameList l => l
  end.
(** figures, files and the interactive flag *)
Inductive content := Before (n : nat) | Fig (name : str) | Converted (name : str).
Record world := W { inter : bool; files : list (str * content); drawn : list (str * nat) }.
Fixpoint remove_first (x : str) (l : list str) : list str := match l with [] => [] | y :: r => if str_eqb x y then r else y :: remove_first x r end.
Definition mem (x : str) (l : list str) : bool := existsb (str_eqb x) l.
(** extensions and whether to convert 281-309 *)
Definition extensions (ftype : str) : option (list str * bool) :=
  if str_eqb ftype (L "mpltoeps") then Some ([L "png"], true) else
  match drop (L "mpl") ftype with
  | Some r => Some (match strip r with [] => [L "eps"; L "pdf"] | e => split_on ","%char e end, false)
  | None => match drop (L "mayavi") ftype with
      | Some r => Some (match strip r with
          | [] => ([L "png"], false)
          | e => let l := split_on ","%char e in
                 if mem (L "eps") l then let l := remove_first (L "eps") l in ((if mem (L "png") l then l else l ++ [L "png"]), true) else (l, false)
          end)
      | None => None
      end
  end.
Definition filename (save name ext : str) : str := save ++ name ++ L "." ++ ext.
(** saving 311-330; [convok]: convert succeeds.  The name kept for the conversion is forgotten at the next extension *)
Definition save_ext (save name : str) (overwrite epsconv : bool) (st : list (str * content) * bool) (ext : str) : list (str * content) * bool :=
  let fn := filename save name ext in
  if negb overwrite && has fn (fst st) then (fst st, false) else (put fn (Fig name) (fst st), epsconv && str_eqb ext (L "png")).
Definition save_plot (save name ftype : str) (overwrite convok : bool) (fs : list (str * content)) : list (str * content) * option exn :=
  match extensions ftype with
  | None => (fs, Some ValueError)
  | Some (exts, epsconv) =>
      let '(fs, conv) := fold_left (save_ext save name overwrite epsconv) exts (fs, false) in
      if conv then if convok then (put (filename save name (L "eps")) (Converted name) fs, None) else (fs, Some ValueError) else (fs, None)
  end.
(** calling the function 268-275 *)
Fixpoint fetch (names : list str) (argd : list (str * val)) : @res (list val) :=
  match names with [] => Ok [] | n :: r => match assoc n argd with None => Raise KeyError | Some v => match fetch r argd with Ok l => Ok (v :: l) | Raise e => Raise e | OutOfFuel => OutOfFuel end end end.
Definition call (f : pfun) (argd : list (str * val)) : option exn := match f with Kw f => f argd | Args names f => match fetch names argd with Ok l => f l | Raise e => Some e | OutOfFuel => None end end.
(** the loop 245-345; a figure is opened before its function is called *)
Definition one_plot (save : option str) (overwrite convok : bool) (argd : list (str * val)) (w : world) (x : str * (pfun * str * nat)) : world * option exn :=
  let '(name, (f, ftype, num)) := x in
  let w := W (if inside (L "mpl") ftype then false else inter w) (files w) (drawn w ++ [(name, num)]) in
  match call f argd with
  | Some e => (w, Some e)
  | None => match save with
            | None => (w, None)
            | Some d => let '(fs, e) := save_plot d name ftype overwrite convok (files w) in (W (inter w) fs (drawn w), e)
            end
  end.
Fixpoint all_plots (save : option str) (overwrite convok : bool) (argd : list (str * val)) (w : world) (l : list (str * (pfun * str * nat))) : world * option exn :=
  match l with [] => (w, None) | x :: r => match one_plot save overwrite convok argd w x with (w, None) => all_plots save overwrite convok argd w r | (w, Some e) => (w, Some e) end end.
(** make_plots 189-349: save is False, True or a text *)
Inductive saving := NoSave | Here | In_ (d : str).
Definition save_dir (s : saving) : option str := match s with NoSave => None | Here => Some (L "./") | In_ d => Some (match rev d with a :: _ => if a =a "/"%char then d else d ++ L "/" | [] => L "/" end) end.
Fixpoint plot_dict (st : plots) (l : list (str * nat)) (d : list (str * (pfun * str * nat))) : @res (list (str * (pfun * str * nat))) :=
  match l with [] => Ok d | (p, n) :: r => match assoc p (plotreg st) with None => Raise KeyError | Some (f, t) => plot_dict st r (put p (f, t, n) d) end end.
Definition make_plots (order : list (str * (pfun * str * nat)) -> list (str * (pfun * str * nat))) (convok : bool) (st : plots) (sel : selection) (figs : option (list nat)) (argd : list (str * val)) (save : saving) (overwrite : bool) (w : world) : world * option exn :=
  let names := select st sel in
  let figs := match figs with None => seq 1 (List.length names) | Some l => l end in
  if negb (Nat.eqb (List.length figs) (List.length names)) then (w, Some ValueError) else
  match plot_dict st (combine names figs) [] with
  | Raise e => (w, Some e)
  | OutOfFuel => (w, None)
  | Ok d =>
      let isinter := inter w in
      let '(w, e) := all_plots (save_dir save) overwrite convok argd (W false (files w) (drawn w)) (order d) in
      (if isinter then W true (files w) (drawn w) else w, e)
  end.
(** main 351-440 with argparse: the names, and the variables *)
Inductive mainsel := MainOff | MainAll | MainGroup (g : str).
Definition figs_to_make (st : plots) (m : mainsel) (named : list str) : @res (list str) :=
  match m with
  | MainOff | MainGroup [] => Ok named
  | MainAll => Ok (List.concat (map snd (mainfigs st)) ++ named)
  | MainGroup g => match mainget (Some g) (mainfigs st) with None => Raise KeyError | Some l => Ok (l ++ named) end
  end.
Definition update (d e : list (str * val)) : list (str * val) := fold_left (fun d x => put (fst x) (snd x) d) e d.
Definition main (order : list (str * (pfun * str * nat)) -> list (str * (pfun * str * nat))) (order' : list str -> list str) (convok : bool) (st : plots) (m : mainsel) (named : list str) (save : option str) (overwrite : bool) (rvars globals : list (str * val)) (w : world) : world * option exn :=
  match figs_to_make st m named with
  | Raise e => (w, Some e)
  | OutOfFuel => (w, None)
  | Ok [] => (w, None)
  | Ok l => make_plots order convok st (NameList (order' (nodup (list_eq_dec ascii_dec) l))) None (update rvars globals) (match save with None => NoSave | Some d => In_ d end) overwrite w
  end.
End Plot.
