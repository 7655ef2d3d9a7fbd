(** * VotModel: VOTableReader, utils/io.py 1023-1338.  The XML is a stream of pulldom events; PARAM, FIELD, DESCRIPTION and TABLEDATA come with their
    content, because expandNode (1116, 1126, 1136, 1141) consumes the events up to and including their end.  Which numpy types exist and the
    conversion of a text to a type are parameters.  A variable that is not bound yet, or deleted, is None. *)
From Coq Require Import List Bool Arith Ascii String.
From Verif Require Import PyBase PubModel AngStrModel RegModel.
Import ListNotations.

Definition RuntimeError : exn := UserExn 1.
(** a PARAM or FIELD: attributes, and the text of each DESCRIPTION inside (None: empty) *)
Record node := Node { attrs : list (str * str); descs : list (option str) }.
(** children of TR: TD with its text (None: empty), or anything else, also white space; children of TABLEDATA *)
Inductive cell_node := TD (t : option str) | NotTD.
Inductive row_node := TR (l : list cell_node) | Text (s : str) | NotTR.
Inductive event :=
| SResource (name : option str) | STable (name : option str) (ref : bool) (nrows : option str) | SData | STableData (l : list row_node) | SBinary | SFits
| SParam (n : node) | SField (n : node) | SGroup | SDescription (s : option str)
| EResource | ETable | EData
| Ignored.  (** other elements (VOTABLE, INFO, LINK, STREAM...), ends of elements not looked at, characters, comments *)

(** dtypemap 1030-1041; the value None of bit is Some None *)
Definition dtypemap (s : str) : option (option str) :=
  assoc s [(L "boolean", Some (L "b")); (L "bit", None); (L "unsignedByte", Some (L "u1")); (L "short", Some (L "i2")); (L "int", Some (L "i4")); (L "long", Some (L "i8")); (L "char", Some (L "a"));
           (L "unicodeChar", Some (L "U")); (L "float", Some (L "f4")); (L "double", Some (L "f8")); (L "floatComplex", Some (L "c8")); (L "doubleComplex", Some (L "c16"))].
(** 1239-1244, 1281-1286 *)
Definition description (l : list (option str)) : @res str :=
  match l with [] => Ok [] | [Some s] => Ok s | [None] => Raise AttributeError | _ => Raise RuntimeError end.
(** 1259-1267, 1291-1299 *)
Definition own (k : str) : bool := str_eqb k (L "name") || str_eqb k (L "arraysize") || str_eqb k (L "datatype").
Definition extras (n : node) (d : str) : list (str * str) := fold_left (fun e p => put (fst p) (snd p) e) (filter (fun p => negb (own (fst p))) (attrs n)) [(L "DESCRIPTION", d)].
Definition is_string (d : option str) : bool := match d with Some d => str_eqb d (L "a") || str_eqb d (L "U") | None => false end.
Record field := Field { fname : str; ftype : option str; fextra : list (str * str) }.
(** _extractField 1235-1271 *)
Definition extract_field (n : node) : @res field :=
  match assoc (L "name") (attrs n) with
  | None => Raise KeyError
  | Some name =>
    match description (descs n) with
    | Ok d =>
      match assoc (L "datatype") (attrs n) with
      | None => Raise KeyError
      | Some t =>
        match dtypemap t with
        | None => Raise KeyError
        | Some ty =>
          match assoc (L "arraysize") (attrs n) with
          | None => Ok (Field name ty (extras n d))
          | Some sz =>
            let sz := strip sz in
            if is_string ty then
              if existsb (Ascii.eqb "x"%char) sz then Raise NotImplementedError
              else if str_eqb sz (L "*") then Raise NotImplementedError
              else Ok (Field name (option_map (fun ty => ty ++ filter (fun a => negb (Ascii.eqb a "*"%char)) sz) ty) (extras n d))
            else Raise NotImplementedError
          end
        end
      end
    | Raise e => Raise e | OutOfFuel => OutOfFuel
    end
  end.

Section Votable.
Variables (value : Type) (type_ok : str -> bool) (conv : str -> str -> option value).
(** str(dtype): 'None' for bit *)
Definition type_name (t : option str) : str := match t with Some t => t | None => L "None" end.
Record par := Par { pname : str; pvalue : str; pextra : list (str * str) }.
(** _extractParam 1273-1303: the text has to be convertible, but stays a text; without a type numpy takes it as it is *)
Definition extract_param (n : node) : @res par :=
  match assoc (L "name") (attrs n) with
  | None => Raise KeyError
  | Some name =>
    match description (descs n) with
    | Ok d =>
      match assoc (L "datatype") (attrs n) with
      | None => Raise KeyError
      | Some t =>
        match dtypemap t with
        | None => Raise KeyError
        | Some ty =>
          match assoc (L "value") (attrs n) with
          | None => Raise KeyError
          | Some v => match ty with Some ty => match conv ty v with Some _ => Ok (Par name v (extras n d)) | None => Raise ValueError end | None => Ok (Par name v (extras n d)) end
          end
        end
      end
    | Raise e => Raise e | OutOfFuel => OutOfFuel
    end
  end.
(** _processTabledata 1305-1338: numpy.ndarray does not initialise its elements; nrows is a text, which numpy.ndarray does not take as a shape (TypeError) *)
Inductive cell := Uninit | Zero | Val (v : value).
Definition good_type (fs : list field) : @res unit :=
  if forallb (fun f => type_ok (type_name (ftype f))) fs then
    if forallb (fun f => Nat.leb (count_occ (list_eq_dec ascii_dec) (map fname fs) (fname f)) 1) fs then Ok tt else Raise ValueError
  else Raise TypeError.
Fixpoint fill (fs : list field) (l : list cell_node) {struct l} : @res (list cell * list bool) :=
  match l with
  | [] => Ok (map (fun _ => Uninit) fs, map (fun _ => true) fs)
  | NotTD :: _ => Raise RuntimeError
  | TD t :: l =>
      match fs with
      | [] => Raise IndexError
      | f :: fs =>
          match t with
          | Some s => match conv (type_name (ftype f)) s with Some v => match fill fs l with Ok (c, m) => Ok (Val v :: c, true :: m) | Raise e => Raise e | OutOfFuel => OutOfFuel end | None => Raise ValueError end
          | None => match fill fs l with Ok (c, m) => Ok (Zero :: c, false :: m) | Raise e => Raise e | OutOfFuel => OutOfFuel end
          end
      end
  end.
Fixpoint fill_rows (fs : list field) (l : list row_node) : @res (list (list cell) * list (list bool)) :=
  match l with
  | [] => Ok ([], [])
  | TR r :: l => match fill fs r with Ok (c, m) => match fill_rows fs l with Ok (cs, ms) => Ok (c :: cs, m :: ms) | Raise e => Raise e | OutOfFuel => OutOfFuel end | Raise e => Raise e | OutOfFuel => OutOfFuel end
  | Text s :: l => match strip s with [] => fill_rows fs l | _ => Raise RuntimeError end
  | NotTR :: _ => Raise RuntimeError
  end.
Definition process (fs : list field) (nrows : option str) (l : list row_node) : @res (list (list cell) * list (list bool)) :=
  match good_type fs with
  | Ok _ => match nrows with Some (_ :: _) => Raise TypeError | _ => fill_rows fs l end
  | Raise e => Raise e | OutOfFuel => OutOfFuel
  end.

(** what is kept of a table (the dictionaries _tables, _masks, _resnames, _fields, _pars and _parexts always get the same key together, 1168-1172) *)
Record table := Table { t_array : list (list cell); t_mask : list (list bool); t_res : option str; t_fields : list field; t_pars : list (str * str); t_parexts : list (str * list (str * str)) }.
Record state := State { tables : list (str * table); tabdescs : list (str * str); resdescs : list (str * str); vdesc : str; rcounter : nat; tcounter : nat; voparams : list par;
  inres : option str; intab : option str; resparams : option (list par); tabparams : option (list par); fields : option (list field); nrows : option (option str);
  array : option (list (list cell) * list (list bool)); params : option (list par) }.
Definition initial : state := State [] [] [] [] 0 0 [] None None None None None None None None.
Definition truth (s : option str) : option str := match s with Some (a :: l) => Some (a :: l) | _ => None end.
(** _applyParams 1180-1182 *)
Definition par_dict (l : list par) : list (str * str) := fold_left (fun d p => put (pname p) (pvalue p) d) l [].
Definition par_exts (l : list par) : list (str * list (str * str)) := fold_left (fun d p => put (pname p) (pextra p) d) l [].
(** one event, 1075-1176 *)
Definition step (s : state) (e : event) : @res state :=
  let '(State ta td rd vd rc tc vo ir it rp tp fi nr ar pa) := s in
  match e with
  | SResource name =>
      match truth ir with
      | Some _ => Raise NotImplementedError
      | None => Ok (State ta td rd vd (S rc) tc vo (Some (match name with Some n => n | None => L "res" ++ decimal (S rc) end)) it (Some []) tp fi nr ar pa)
      end
  | STable name ref nrow =>
      match truth ir with
      | None => Raise RuntimeError
      | Some r =>
        match it with
        | Some _ => Raise RuntimeError
        | None =>
          if (ref : bool) then Raise NotImplementedError
          else
            let n := match name with Some n => r ++ L ":" ++ n | None => L "tab" ++ decimal (S tc) end in
            let n := if has n ta then n ++ L "_" ++ decimal (S tc) else n in
            Ok (State ta td rd vd rc (S tc) vo ir (Some n) rp (Some []) (Some []) (Some nrow) ar pa)
        end
      end
  | SData =>
      match it with
      | None => Raise RuntimeError
      | Some _ => match rp, tp with Some r, Some t => Ok (State ta td rd vd rc tc vo ir it rp tp fi nr ar (Some (vo ++ r ++ t))) | _, _ => Raise NameError end
      end
  | STableData l =>
      match fi, pa, nr with
      | Some f, Some _, Some n => match process f n l with Ok am => Ok (State ta td rd vd rc tc vo ir it rp tp fi nr (Some am) pa) | Raise e => Raise e | OutOfFuel => OutOfFuel end
      | _, _, _ => Raise NameError
      end
  | SBinary | SFits | SGroup => Raise NotImplementedError
  | SParam n =>
      match extract_param n with
      | Ok p =>
          match it with
          | Some _ => match tp with Some t => Ok (State ta td rd vd rc tc vo ir it rp (Some (t ++ [p])) fi nr ar pa) | None => Raise NameError end
          | None => match truth ir with
                    | Some _ => match rp with Some r => Ok (State ta td rd vd rc tc vo ir it (Some (r ++ [p])) tp fi nr ar pa) | None => Raise NameError end
                    | None => Ok (State ta td rd vd rc tc (vo ++ [p]) ir it rp tp fi nr ar pa)
                    end
          end
      | Raise e => Raise e | OutOfFuel => OutOfFuel
      end
  | SField n =>
      match it with
      | None => Raise RuntimeError
      | Some _ => match extract_field n with
                  | Ok f => match fi with Some l => Ok (State ta td rd vd rc tc vo ir it rp tp (Some (l ++ [f])) nr ar pa) | None => Raise NameError end
                  | Raise e => Raise e | OutOfFuel => OutOfFuel
                  end
      end
  | SDescription d =>
      match d with
      | None => Raise AttributeError
      | Some d => match truth ir with
                  | Some r => match it with Some t => Ok (State ta (put t d td) rd vd rc tc vo ir it rp tp fi nr ar pa) | None => Ok (State ta td (put r d rd) vd rc tc vo ir it rp tp fi nr ar pa) end
                  | None => Ok (State ta td rd d rc tc vo ir it rp tp fi nr ar pa)
                  end
      end
  | EResource => Ok (State ta td rd vd rc tc vo None it rp tp fi nr ar pa)
  | ETable =>
      match it, fi, pa, ar with
      | Some n, Some f, Some p, Some (a, m) => Ok (State (put n (Table a m ir f (par_dict p) (par_exts p)) ta) td rd vd rc tc vo ir None rp tp None nr None None)
      | _, _, _, _ => Raise NameError
      end
  | EData | Ignored => Ok s
  end.
Fixpoint run (s : state) (l : list event) : @res state := match l with [] => Ok s | e :: l => match step s e with Ok s => run s l | Raise x => Raise x | OutOfFuel => OutOfFuel end end.
(** __init__ 1043-1178 *)
Definition read (l : list event) : @res state := run initial l.
(** _tableToName 1227-1233 and the queries 1184-1225, for a name; for the number 0 the order of the dictionary decides (keys()[0]).
    getTableParams and getTableParamExtras return nothing *)
Inductive which := ByName (s : str) | ByIndex (i : nat).
Definition table_name (s : state) (w : which) : @res str :=
  match w with
  | ByName n => if has n (tables s) then Ok n else Raise KeyError
  | ByIndex i => match nth_error (map fst (tables s)) i with Some n => Ok n | None => Raise IndexError end
  end.
Definition query {B} (f : table -> B) (s : state) (w : which) : @res B :=
  match table_name s w with Ok n => match assoc n (tables s) with Some t => Ok (f t) | None => Raise KeyError end | Raise e => Raise e | OutOfFuel => OutOfFuel end.
Definition getTableArray := query t_array.
Definition getTableMask := query t_mask.
Definition getTableResource := query t_res.
Definition getTableFieldNames := query (fun t => map fname (t_fields t)).
Definition getTableFieldDtypes := query (fun t => fold_left (fun d f => put (fname f) (type_name (ftype f)) d) (t_fields t) []).
Definition getTableFieldExtras := query (fun t => fold_left (fun d f => put (fname f) (fextra f) d) (t_fields t) []).
Definition getTableParams (s : state) (w : which) : @res unit := query (fun _ => tt) s w.
End Votable.
