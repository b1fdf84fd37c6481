(** Format validators: their registration (vocabulary/format.py:44-66), the one
    that comes with the library (formats.py), enabling them in a catalog
    (catalog/__init__.py:267-279) and FormatKeyword with the validator it holds
    (format.py:14-32).

    Schema.v and Build.v take the validators as an argument; here is what that
    argument is.  Simplification: a validator is given the plain value; the
    arrays and objects of the instance are JSON objects in the code. *)
From Verif Require Export Schema Pointer Catalog.

(** A validator returns, or raises; format.py:35-41. *)
Definition validator := json -> res unit.
(** formats.py:6-9. *)
Definition validate_json_pointer : validator := fun v =>
  match v with
  | JStr s => if fullmatch JSON_POINTER_RE s then Ok tt else Exn EValue
  | _ => Ok tt
  end.

(** What the process holds: _format_validators (format.py:44), whether the
    module jschon.formats has been imported, and which formats are enabled in
    which catalog (catalog/__init__.py:96). *)
Record formats : Type := mkFormats {
  fs_table : list (pystr * (validator * list jtype));
  fs_imported : bool;
  fs_enabled : list (nat * list pystr)
}.
Definition no_formats : formats := mkFormats [] false [].
(** format_validator, format.py:47-66. *)
Definition format_validator (name : pystr) (types : list jtype) (f : validator) (st : formats) : formats :=
  mkFormats (dset name (f, types) (fs_table st)) (fs_imported st) (fs_enabled st).
(** import_module('jschon.formats'): the module is run the first time; formats.py:5. *)
Definition import_formats (st : formats) : formats :=
  if fs_imported st then st
  else let st := format_validator (lit "json-pointer") [TString] validate_json_pointer st in
       mkFormats (fs_table st) true (fs_enabled st).
(** Catalog.enable_formats, catalog/__init__.py:267-274. *)
Definition enable (c : nat) (names : list pystr) (st : formats) : formats :=
  let st := import_formats st in
  mkFormats (fs_table st) (fs_imported st) ((c, names) :: fs_enabled st).
(** Catalog.is_format_enabled, catalog/__init__.py:276-279. *)
Definition enabled (c : nat) (name : pystr) (st : formats) : bool :=
  existsb (fun p => (fst p =? c)%nat && is_format_enabled name (snd p)) (fs_enabled st).

(** FormatKeyword.__init__, format.py:17-22: validator and validates_types, for
    a string; the other values are treated in Build.v. *)
Definition format_keyword (c : nat) (name : pystr) (st : formats) : res (option (validator * list jtype)) :=
  if enabled c name st
  then match dget name (fs_table st) with Some x => Ok (Some x) | None => Exn EKey end
  else Ok None.
(** FormatKeyword.evaluate, format.py:24-32. *)
Definition format_evaluate (name : pystr) (held : option (validator * list jtype)) (i : inst) (result : rnode) : res rnode :=
  let result := annotate result (JStr name) in
  match held with
  | Some (f, types) =>
      if mem_type (type_of (i_val i)) types
      then match f (i_val i) with
           | Ok _ => Ok result
           | Exn EValue => Ok (fail result (JStr (lit "The instance is invalid against the """ ++ name ++ lit """ format: ")))
           | Exn e => Exn e
           | Fuel => Fuel
           end
      else Ok (noassert result)
  | None => Ok (noassert result)
  end.

(** A history of registrations, imports and enablements. *)
Inductive event : Type :=
| Registered (name : pystr) (types : list jtype) (f : validator)
| Imported
| Enabled (c : nat) (names : list pystr).
Definition happen (st : formats) (e : event) : formats :=
  match e with
  | Registered name types f => format_validator name types f st
  | Imported => import_formats st
  | Enabled c names => enable c names st
  end.
Definition after (h : list event) : formats := fold_left happen h no_formats.
