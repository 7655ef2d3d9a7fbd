(** * ProjModel: the project registry, config.py 728-855, with the file system at every moment *)
From Coq Require Import List Bool Arith Ascii String.
From Verif Require Import PyBase PubModel CfgModel.
Import ListNotations.

(** ** Paths: posixpath.join, normpath, abspath, dirname *)
Definition sep : ascii := "/"%char.
Definition isabs (p : str) : bool := match p with a :: _ => is sep a | [] => false end.
Definition ends_sep (p : str) : bool := match rev p with a :: _ => is sep a | [] => false end.
Definition pjoin (a b : str) : str := if isabs b then b else match a with [] => b | _ => if ends_sep a then a ++ b else a ++ sep :: b end.
Definition slashes (p : str) : str := match p with a :: b :: c :: _ => if is sep a then if is sep b && negb (is sep c) then [sep; sep] else [sep] else [] | [a; b] => if is sep a then if is sep b then [sep; sep] else [sep] else [] | [a] => if is sep a then [sep] else [] | [] => [] end.
(** the components kept, the last one first *)
Fixpoint walk (absolute : bool) (comps kept : list str) : list str :=
  match comps with
  | [] => kept
  | c :: r =>
      if str_eqb c [] || str_eqb c (L ".") then walk absolute r kept
      else if negb (str_eqb c (L "..")) || (negb absolute && match kept with [] => true | _ => false end) || match kept with l :: _ => str_eqb l (L "..") | [] => false end then walk absolute r (c :: kept)
      else walk absolute r (tl kept)
  end.
Definition normpath (p : str) : str := match p with [] => L "." | _ => match slashes p ++ join [sep] (rev (walk (isabs p) (split_on sep p) [])) with [] => L "." | q => q end end.
Definition abspath (cwd p : str) : str := normpath (if isabs p then p else pjoin cwd p).
(** the directory of a path *)
Fixpoint before_last (p acc best : str) : str := match p with [] => best | a :: r => before_last r (acc ++ [a]) (if is sep a then acc else best) end.
Definition parent (p : str) : str := match before_last p [] [] with [] => [sep] | d => d end.

(** ** The file system *)
Inductive node := File (content : str) | Dir.
Definition fs := str -> option node.
Definition upd (p : str) (n : node) (s : fs) : fs := fun q => if str_eqb q p then Some n else s q.
Definition isdir (s : fs) (p : str) : bool := match s p with Some Dir => true | _ => false end.
Definition exists_ (s : fs) (p : str) : bool := match s p with Some _ => true | None => false end.
Definition OSError : exn := UserExn 8.
Definition IOError : exn := UserExn 9.
(** an answer; [Outside]: a configuration file with sections or the like *)
Inductive ans (A : Type) := Fine (a : A) | Error (e : exn) | Outside.
Arguments Fine {A}. Arguments Error {A}. Arguments Outside {A}.
(** the states after every change on the disk, the last state, the answer *)
Definition act (A : Type) := fs -> list fs * fs * ans A.
Definition ret {A} (a : A) : act A := fun s => ([], s, Fine a).
Definition fail {A} (e : exn) : act A := fun s => ([], s, Error e).
Definition bind {A B} (m : act A) (f : A -> act B) : act B := fun s =>
  match m s with (tr, s1, Fine a) => match f a s1 with (tr2, s2, b) => (tr ++ tr2, s2, b) end | (tr, s1, Error e) => (tr, s1, Error e) | (tr, s1, Outside) => (tr, s1, Outside) end.
Definition look {A} (f : fs -> act A) : act A := fun s => f s s.
(** what the user may change, the working directory, the directory of the configuration, the template that comes with the package *)
Record world := World { may : str -> bool; cwd : str; confdir : str; template : str }.
Definition conf (w : world) : str := confdir w ++ L "/projects".
Definition mkdir (w : world) (p : str) : act unit := fun s =>
  if may w p && negb (exists_ s p) && isdir s (parent p) then let s' := upd p Dir s in ([s'], s', Fine tt) else ([], s, Error OSError).
(** open(p, 'w'), write, close: the file is empty at first and then grows *)
Definition write (w : world) (p txt : str) : act unit := fun s =>
  if may w p && negb (isdir s p) && isdir s (parent p) then (map (fun n => upd p (File (firstn n txt)) s) (seq 0 (S (List.length txt))), upd p (File txt) s, Fine tt) else ([], s, Error IOError).
(** get_config 744-772 with get_config_dir 669-727: with one error in the file None is returned *)
Definition get_config (w : world) : act (option cfg) :=
  bind (look (fun s => if isdir s (confdir w) then ret tt else mkdir w (confdir w))) (fun _ =>
  look (fun s => match load (match s (conf w) with Some (File t) => Some t | _ => None end) with Done o => ret (Some o) | Failed 1 => ret None | Failed _ => fail ConfigObjError | Unmodelled => fun s => ([], s, Outside) end)).
(** get_projects 774-784 *)
Definition get_projects (w : world) : act (list (str * value)) :=
  bind (get_config w) (fun pc => match pc with Some o => ret (map (fun e => (ekey e, evalue e)) (entries o)) | None => fail TypeError end).
(** 811-818 *)
Definition project_dir (w : world) (name : str) (dir : option str) : str := abspath (cwd w) (match dir with None => pjoin (L ".") name | Some d => d end).
Definition ends_py (p : str) : bool := prefix (rev (L ".py")) (rev p).
(** 821-830 *)
Definition script_file (w : world) (pdir name : str) (script : option str) : str :=
  abspath (cwd w) (match script with
                   | None => let f := pjoin pdir (map (fun a => if is sep a then "_"%char else a) name) in if ends_py f then f else f ++ L ".py"
                   | Some f => pjoin pdir f
                   end).
Definition write_config (w : world) (o : cfg) : act unit := match dump o with Ok t => write w (conf w) t | Raise e => fail e | OutOfFuel => fun s => ([], s, Outside) end.
(** add_project 786-845 *)
Definition add_project (w : world) (name : str) (dir script : option str) : act (str * str) :=
  bind (get_config w) (fun pc =>
  let pdir := project_dir w name dir in
  bind (look (fun s => if isdir s pdir then ret tt else mkdir w pdir)) (fun _ =>
  let pfile := script_file w pdir name script in
  bind (look (fun s => if negb (exists_ s pfile) then write w pfile (template w) else if isdir s pfile then fail IOError else ret tt)) (fun _ =>
  match pc with
  | None => fail TypeError
  | Some o => bind (write_config w (set_item name (Lst [pdir; pfile]) o)) (fun _ => ret (pdir, pfile))
  end))).
(** del_project 847-853 *)
Definition del_project (w : world) (name : str) : act unit :=
  bind (get_config w) (fun pc => match pc with None => fail TypeError | Some o => match del_item name o with Ok o' => write_config w o' | Raise e => fail e | OutOfFuel => fun s => ([], s, Outside) end end).
