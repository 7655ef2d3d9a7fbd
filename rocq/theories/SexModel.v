(** * SexModel: configuration files of SExtractor, astropysics/phot.py 2520-2578, 2604-2753

    Text is a list of characters; a dictionary is a list of pairs; the file system is a list of names and contents, in which every directory exists and can be written to.  Option values are texts (str is applied when they are written).  The program itself is not run: the command line is the result.  IOError is UserExn 1. *)
From Coq Require Import List Bool ZArith String Ascii Arith.
From Verif Require Import PyBase PubModel IoModel RegModel.
Import ListNotations.

Definition hash : ascii := "#"%char.
Definition tab : ascii := ascii_of_nat 9.
Definition sp : ascii := " "%char.
(** what _getSexDefaults stores on the class *)
Record sexinfo := Info { optinfo : list (str * str); defaultopts : list (str * str); optorder : list str; parinfo : list (str * (str * str)); parorder : list str }.

(** the option part of _getSexDefaults 2540-2568: [o_key], [o_val], [o_comm] are k, optval and comm *)
Record ostate := OS { o_opts : list (str * str); o_info : list (str * str); o_order : list str; o_key : option str; o_val : str; o_comm : str }.
Definition conf_line (st : ostate) (l : str) : ostate :=
  let '(new, newcomm) := match find [hash] l with
    | Some (a0 :: b, a) => (match words [] (a0 :: b) with [] => None | k :: vs => Some (k, join [sp] vs) end, strip a)
    | _ => (None, [])
    end in
  match new with
  | None => OS (o_opts st) (o_info st) (o_order st) (o_key st) (o_val st) (o_comm st ++ newcomm)
  | Some (k, v) => match o_key st with
      | None => OS (o_opts st) (o_info st) (o_order st) (Some k) v newcomm
      | Some k0 => OS (put k0 (o_val st) (o_opts st)) (put k0 (o_comm st) (o_info st)) (o_order st ++ [k0]) (Some k) v newcomm
      end
  end.
Definition read_conf (txt : str) : ostate := fold_left conf_line (split_on nl txt) (OS [] [] [] None [] []).
(** the parameter part 2570-2577: str.replace of one character by nothing is a filter *)
Definition without (c : ascii) (s : str) : str := filter (fun a => negb (a =a c)) s.
Definition parm_line (st : list (str * (str * str)) * list str) (l : str) : list (str * (str * str)) * list str :=
  match words [] l with
  | w0 :: w1 :: ws =>
      let lst := last (w1 :: ws) w1 in
      let unit := if existsb (fun a => a =a "["%char) lst then without "]"%char (without "["%char lst) else [] in
      let info := join [sp] (match unit with [] => w1 :: ws | _ => removelast (w1 :: ws) end) in
      let k := without hash w0 in
      (put k (info, unit) (fst st), snd st ++ [k])
  | _ => st
  end.
Definition read_parm (txt : str) := fold_left parm_line (split_on nl txt) ([], []).
Definition getSexDefaults (conf parm : str) : sexinfo := let o := read_conf conf in let p := read_parm parm in Info (o_info o) (o_opts o) (o_order o) (fst p) (snd p).

(** lines of an open file: each with its newline *)
Fixpoint file_lines (s : str) : list str :=
  match s with [] => [] | a :: r => if a =a nl then [nl] :: file_lines r else match file_lines r with [] => [[a]] | l :: ls => (a :: l) :: ls end end.
(** an object: name, options, params, overwrite *)
Record sex := Sex { name : str; options : list (str * str); params : list (str * bool); overwrite : bool }.
Definition filesystem := list (str * str).
Definition cut (l : str) : str := match find [hash] l with Some (b, _) => b | None => removelast l end.
Fixpoint read_options (lines : list str) (opts : list (str * str)) : @res (list (str * str)) :=
  match lines with
  | [] => Ok opts
  | l :: r => match words [] (cut l) with
              | k :: v :: _ => if has k opts then read_options r (put k v opts) else Raise ValueError
              | _ => read_options r opts
              end
  end.
Fixpoint read_params (lines : list str) (pars : list (str * bool)) : @res (list (str * bool)) :=
  match lines with
  | [] => Ok pars
  | l :: r => match strip l with
              | [] => read_params r pars
              | a :: _ => if a =a hash then read_params r pars else
                          match words [] l with
                          | k :: _ => if has k pars then read_params r (put k true pars) else Raise ValueError
                          | [] => Raise IndexError
                          end
              end
  end.
Definition no_sex (s : str) : str := remove_all (S (List.length s)) (L ".sex") s.
Definition defs286 : list str := map L ["NUMBER"; "FLUX_ISO"; "FLUXERR_ISO"; "FLUX_AUTO"; "FLUXERR_AUTO"; "X_IMAGE"; "Y_IMAGE"; "FLAGS"]%string.
(** __init__ 2604-2652; an empty sexfile counts as none *)
Definition open_ (fs : filesystem) (n : str) : @res str := match assoc n fs with Some t => Ok t | None => Raise IOError end.
Definition bindr {A B} (r : @res A) (f : A -> @res B) : @res B := match r with Ok a => f a | Raise e => Raise e | OutOfFuel => OutOfFuel end.
Definition new_sex (i : sexinfo) (fs : filesystem) (sexfile : str) (parfile : option str) : @res sex :=
  bindr (match sexfile with [] => Ok (L "astropysics_auto", defaultopts i) | _ => bindr (open_ fs sexfile) (fun t => bindr (read_options (file_lines t) (defaultopts i)) (fun o => Ok (no_sex sexfile, o))) end) (fun '(nm, opts) =>
  bindr (match parfile with Some p => Ok p | None => match assoc (L "PARAMETERS_NAME") opts with Some p => Ok p | None => Raise KeyError end end) (fun pfile =>
  let pars := fold_left (fun d p => put (fst p) false d) (parinfo i) [] in
  bindr (if str_eqb pfile (L "default.param") then Ok pars else bindr (open_ fs pfile) (fun t => read_params (file_lines t) pars)) (fun pars =>
  let pars := if existsb snd pars then pars else fold_left (fun d p => if has p d then put p true d else d) defs286 pars in
  Ok (Sex nm opts pars false)))).
(** getParamList 2655-2659; a parameter missing in the dictionary is a KeyError *)
Fixpoint all_get {A B} (f : A -> @res (list B)) (l : list A) : @res (list B) := match l with [] => Ok [] | a :: r => bindr (f a) (fun x => bindr (all_get f r) (fun y => Ok (x ++ y))) end.
Definition getParamList (i : sexinfo) (s : sex) : @res (list str) := all_get (fun k => match assoc k (params s) with None => Raise KeyError | Some true => Ok [k] | Some false => Ok [] end) (parorder i).
(** _makeOptionStr 2683-2686, _makeParamStr 2688-2691; [shown] is str of the tuple of information *)
Definition makeOptionStr (i : sexinfo) (s : sex) : @res str :=
  bindr (all_get (fun o => match assoc o (options s), assoc o (optinfo i) with Some v, Some c => Ok [o ++ [tab] ++ v ++ [tab; sp; hash; sp] ++ c] | _, _ => Raise KeyError end) (optorder i)) (fun l => Ok (join [nl] l)).
Definition makeParamStr (shown : str * str -> str) (i : sexinfo) (s : sex) : @res str :=
  bindr (all_get (fun p => match assoc p (params s) with None => Raise KeyError | Some false => Ok [] | Some true => match assoc p (parinfo i) with Some c => Ok [p ++ [tab; sp; hash; sp] ++ shown c] | None => Raise KeyError end end) (parorder i)) (fun l => Ok (join [nl] l)).
(** os.path.split(p)[0] *)
Definition slash : ascii := "/"%char.
Definition head_of (p : str) : str :=
  match rfind [slash] p with
  | None => []
  | Some h => let h := h ++ [slash] in if forallb (fun a => a =a slash) h then h else rev (snd (span (fun a => a =a slash) (rev h)))
  end.
(** _saveFiles 2661-2680: the option file may be written before the other one fails *)
Definition saveFiles (shown : str * str -> str) (i : sexinfo) (fs : filesystem) (s : sex) (fnbase : str) : filesystem * sex * @res unit :=
  let fnbase := no_sex fnbase in
  let dir := match head_of fnbase with [] => [] | d => d ++ [slash] end in
  let s' := Sex (name s) (put (L "PARAMETERS_NAME") (dir ++ fnbase ++ L ".param") (options s)) (params s) (overwrite s) in
  match makeOptionStr i s' with
  | Raise e => (fs, s', Raise e)
  | OutOfFuel => (fs, s', OutOfFuel)
  | Ok o => match makeParamStr shown i s' with
            | Raise e => (fs, s', Raise e)
            | OutOfFuel => (fs, s', OutOfFuel)
            | Ok p => (put (dir ++ fnbase ++ L ".param") p (put (fnbase ++ L ".sex") o fs), s', Ok tt)
            end
  end.
(** sextractImage 2703-2738: the name, the files and the command line *)
Definition next_name (n : str) : str :=
  let fns := split_on "-"%char n in
  let i := match py_int (last fns []) with Ok i => (i + 1)%Z | _ => 2%Z end in
  match fns with
  | [] | [_] => join ["-"%char] (fns ++ [decimal (Z.to_nat i)])
  | _ => join ["-"%char] (removelast fns ++ [decimal (Z.to_nat i)])
  end.
Definition sextractImage (shown : str * str -> str) (i : sexinfo) (fs : filesystem) (s : sex) (detim : str) (anim : str) : filesystem * sex * @res (list str) :=
  let nm := if overwrite s then name s else let b := no_sex (name s) in if has (b ++ L ".sex") fs then next_name b else b in
  let '(fs', s', r) := saveFiles shown i fs (Sex nm (options s) (params s) (overwrite s)) nm in
  match r with
  | Ok _ => (fs', s', Ok (words [] (L "sex " ++ detim ++ (match anim with [] => [] | _ => sp :: anim end) ++ L " -c " ++ nm ++ L ".sex")))
  | Raise e => (fs', s', Raise e)
  | OutOfFuel => (fs', s', OutOfFuel)
  end.
