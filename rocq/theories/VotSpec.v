(** * VotSpec: VOTable documents and what reading them should give (C100) *)
From Coq Require Import List Bool Arith Ascii String Lia.
From Verif Require Import PyBase PubModel AngStrModel RegModel VotModel.
Import ListNotations.

(** ** Documents: the description, parameters and resources of a VOTable; those of a resource; those of a table *)
Record vot_table := VT { vt_name : option str; vt_desc : option str; vt_head : list (node + node) (* PARAM or FIELD *); vt_body : list row_node }.
Record vot_res := VR { vr_name : option str; vr_desc : option str; vr_params : list node; vr_tables : list vot_table }.
Record vot := VO { vo_desc : option str; vo_params : list node; vo_res : list vot_res }.
Definition desc_events (d : option str) : list event := match d with Some d => [SDescription (Some d)] | None => [] end.
Definition table_events (t : vot_table) : list event :=
  STable (vt_name t) false None :: desc_events (vt_desc t) ++ map (fun x => match x with inl n => SParam n | inr n => SField n end) (vt_head t) ++ [SData; STableData (vt_body t); EData; ETable].
Definition res_events (r : vot_res) : list event := SResource (vr_name r) :: desc_events (vr_desc r) ++ map SParam (vr_params r) ++ flat_map table_events (vr_tables r) ++ [EResource].
Definition doc_events (d : vot) : list event := desc_events (vo_desc d) ++ map SParam (vo_params d) ++ flat_map res_events (vo_res d).
(** the events of a document with anything that does not matter in between *)
Definition not_ignored (e : event) : bool := match e with Ignored => false | _ => true end.
Definition document (d : vot) (l : list event) : Prop := filter not_ignored l = doc_events d.

(** ** Names: the resource and the table, or a number; a name used before gets the number of the table appended *)
Definition table_name_of (used : list str) (k : nat) (r : str) (t : vot_table) (n : str) : Prop :=
  exists base, (match vt_name t with Some x => base = r ++ ":"%char :: x | None => base = L "tab" ++ decimal k end) /\ (~ In base used -> n = base) /\ (In base used -> n = base ++ "_"%char :: decimal k).
Definition res_name_of (i : nat) (r : vot_res) (n : str) : Prop := n <> [] /\ match vr_name r with Some x => n = x | None => n = L "res" ++ decimal i end.
(** the tables in their order: their name, the resource they are in, the parameters of the document and of the resource *)
Record place := Place { pl_name : str; pl_res : str; pl_params : list node; pl_table : vot_table }.
Inductive places_in (d : vot) (rn : str) (r : vot_res) : list str -> nat -> list vot_table -> list place -> Prop :=
| places_nil used k : places_in d rn r used k [] []
| places_cons used k t ts n ps : table_name_of used (S k) rn t n -> places_in d rn r (n :: used) (S k) ts ps ->
    places_in d rn r used k (t :: ts) (Place n rn (vo_params d ++ vr_params r) t :: ps).
Inductive places_of (d : vot) : list str -> nat -> nat -> list vot_res -> list place -> Prop :=
| res_nil used i k : places_of d used i k [] []
| res_cons used i k r rs rn ps ps' : res_name_of (S i) r rn -> places_in d rn r used k (vr_tables r) ps ->
    places_of d (map pl_name ps ++ used) (S i) (k + List.length (vr_tables r)) rs ps' -> places_of d used i k (r :: rs) (ps ++ ps').
Definition places (d : vot) (ps : list place) : Prop := places_of d [] 0 0 (vo_res d) ps.

(** ** Fields and parameters *)
Inductive numpy_type : str -> str -> Prop :=
| ty_boolean : numpy_type (L "boolean") (L "b") | ty_byte : numpy_type (L "unsignedByte") (L "u1") | ty_short : numpy_type (L "short") (L "i2") | ty_int : numpy_type (L "int") (L "i4")
| ty_long : numpy_type (L "long") (L "i8") | ty_char : numpy_type (L "char") (L "a") | ty_unicode : numpy_type (L "unicodeChar") (L "U") | ty_float : numpy_type (L "float") (L "f4")
| ty_double : numpy_type (L "double") (L "f8") | ty_fcomplex : numpy_type (L "floatComplex") (L "c8") | ty_dcomplex : numpy_type (L "doubleComplex") (L "c16").
Definition attr (n : node) (k : string) (v : str) : Prop := assoc (L k) (attrs n) = Some v.
Definition digits (s : str) : Prop := s <> [] /\ Forall (fun a => In a (L "0123456789")) s.
Definition described (n : node) (d : str) : Prop := descs n = [] /\ d = [] \/ descs n = [Some d].
(** a FIELD with a primitive type, or a string of at most so many characters *)
Inductive field_type (n : node) : str -> Prop :=
| ft_plain t ty : attr n "datatype" t -> numpy_type t ty -> assoc (L "arraysize") (attrs n) = None -> field_type n ty
| ft_string t ty k s : attr n "datatype" t -> numpy_type t ty -> t = L "char" \/ t = L "unicodeChar" -> digits k -> attr n "arraysize" s -> s = k \/ s = k ++ ["*"%char] -> field_type n (ty ++ k).
(** everything else the element says *)
Definition says (n : node) (e : list (str * str)) : Prop :=
  (exists d, described n d /\ (assoc (L "DESCRIPTION") (attrs n) = None -> assoc (L "DESCRIPTION") e = Some d)) /\
  forall k, ~ In k [L "name"; L "arraysize"; L "datatype"; L "DESCRIPTION"] -> NoDup (map fst (attrs n)) -> assoc k e = assoc k (attrs n).
Definition heads (t : vot_table) : list node := flat_map (fun x => match x with inr n => [n] | inl _ => [] end) (vt_head t).
Definition own_params (t : vot_table) : list node := flat_map (fun x => match x with inl n => [n] | inr _ => [] end) (vt_head t).
(** rows with white space between them, none inside *)
Inductive rows_of : list row_node -> list (list (option str)) -> Prop :=
| rows_nil : rows_of [] []
| rows_row l b rs : rows_of b rs -> rows_of (TR (map TD l) :: b) (l :: rs)
| rows_space s b rs : (forall a, In a s -> is_space a = true) -> rows_of b rs -> rows_of (Text s :: b) rs.
Section Good.
Variables (value : Type) (type_ok : str -> bool) (conv : str -> str -> option value).
Definition good_param (n : node) : Prop := exists name t v d, attr n "name" name /\ attr n "datatype" t /\ attr n "value" v /\ described n d /\ (t = L "bit" \/ exists ty, numpy_type t ty /\ conv ty v <> None).
Definition good_field (n : node) : Prop := exists name ty d, attr n "name" name /\ described n d /\ field_type n ty /\ type_ok ty = true.
Definition good_rows (t : vot_table) (rs : list (list (option str))) : Prop :=
  rows_of (vt_body t) rs /\ Forall (fun r => Forall2 (fun n c => forall s, c = Some s -> forall ty, field_type n ty -> conv ty s <> None) (heads t) r) rs.
Definition good_table (t : vot_table) : Prop :=
  Forall good_param (own_params t) /\ Forall good_field (heads t) /\ (forall i j x y a b, nth_error (heads t) i = Some x -> nth_error (heads t) j = Some y -> attr x "name" a -> attr y "name" b -> i <> j -> a <> b) /\ exists rs, good_rows t rs.
Definition good (d : vot) : Prop := Forall good_param (vo_params d) /\ Forall (fun r => Forall good_param (vr_params r) /\ Forall good_table (vr_tables r)) (vo_res d).
(** the last parameter of a name, reading from the document into the table *)
Fixpoint last_param (l : list node) (k : str) : option str :=
  match l with [] => None | n :: l => match last_param l k with Some v => Some v | None => if (match assoc (L "name") (attrs n) with Some x => str_eqb x k | None => false end) then assoc (L "value") (attrs n) else None end end.
(** ** What reading should give *)
Definition cell_right (n : node) (c : option str) (x : cell value) (m : bool) : Prop :=
  match c with Some s => exists ty v, field_type n ty /\ conv ty s = Some v /\ x = Val value v /\ m = true | None => x = Zero value /\ m = false end.
Definition table_right (st : state value) (p : place) : Prop :=
  getTableResource value st (ByName (pl_name p)) = Ok (Some (pl_res p)) /\
  (exists names, getTableFieldNames value st (ByName (pl_name p)) = Ok names /\ Forall2 (fun n x => attr n "name" x) (heads (pl_table p)) names) /\
  (exists types, getTableFieldDtypes value st (ByName (pl_name p)) = Ok types /\ forall n x ty, In n (heads (pl_table p)) -> attr n "name" x -> field_type n ty -> assoc x types = Some ty) /\
  (exists ex, getTableFieldExtras value st (ByName (pl_name p)) = Ok ex /\ forall n x, In n (heads (pl_table p)) -> attr n "name" x -> exists e, assoc x ex = Some e /\ says n e) /\
  (exists rs a m, rows_of (vt_body (pl_table p)) rs /\ getTableArray value st (ByName (pl_name p)) = Ok a /\ getTableMask value st (ByName (pl_name p)) = Ok m /\
     List.length a = List.length rs /\ List.length m = List.length rs /\
     forall i r, nth_error rs i = Some r -> exists ai mi, nth_error a i = Some ai /\ nth_error m i = Some mi /\ List.length ai = List.length r /\ List.length mi = List.length r /\
       forall j n c, nth_error (heads (pl_table p)) j = Some n -> nth_error r j = Some c -> exists x b, nth_error ai j = Some x /\ nth_error mi j = Some b /\ cell_right n c x b) /\
  (forall k, exists t, assoc (pl_name p) (tables value st) = Some t /\ assoc k (t_pars value t) = last_param (pl_params p ++ own_params (pl_table p)) k).
End Good.
