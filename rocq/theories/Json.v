(** [Json<T>] (convert/json.rs): a value of any serde type kept as JSON text in a string column.
    serde_json and T's serde implementations are outside the repository: they are the parameters
    [j_text] ([serde_json::to_string]) and [j_read] ([serde_json::from_str]) of [serde_json],
    which may fail. Only the kind of an error is kept, not its message. *)
From Verif Require Import Base Types Text Utf8 RawRow Convert.
Local Open Scope list_scope. Local Open Scope N_scope.

Record serde_json (T : Type) := { j_text : T -> option text; j_read : text -> option T }.
Arguments j_text {T}. Arguments j_read {T}.

(** convert/json.rs 9-17: the type hint is not looked at. *)
Definition json_to_sql {T} (J : serde_json T) (x : T) (_ : option ty) : res value :=
  match j_text J x with Some s => Ok (VString (utf8 s)) | None => Err ESer end.

(** convert/json.rs 19-27: [String::from_sql], then [serde_json::from_str]. *)
Definition json_from_sql {T} (J : serde_json T) (t : ty) (v : value) : res T :=
  raw <- from_sql RString t v ;;
  match raw with
  | XStr s => match j_read J s with Some x => Ok x | None => Err EDeser end
  | _ => Panic
  end.

(** [Option<Json<T>>]: convert/std_serialize.rs 175-182, std_deserialize.rs 286-298. *)
Definition json_opt_to_sql {T} (J : serde_json T) (o : option T) (h : option ty) : res value :=
  match o with None => Ok VNull | Some x => json_to_sql J x (obind h unnull) end.
Definition json_opt_from_sql {T} (J : serde_json T) (t : ty) (v : value) : res (option T) :=
  let sub := match t with TNullable x => strip_low_cardinality x | x => x end in
  match v with VNull => Ok None | _ => x <- json_from_sql J sub v ;; Ok (Some x) end.
