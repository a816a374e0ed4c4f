(** Specification of the type language (C12, C69): which texts mean which type, and on which
    texts the parser panics.  Stated with parenthesis levels and pieces of text, not with the
    parser's loops. *)
From Coq Require Import String ZArith.
From Verif Require Import Base Types Text TypeText Numeral.
Local Open Scope list_scope.
Local Open Scope N_scope.

(** Identifiers: a letter, '_' or '$', then letters, digits, '_' or '$'. *)
Definition ident_start (U : unicode) (c : N) : bool := is_alpha U c || (c =? 95) || (c =? 36).
Definition ident_char (U : unicode) (c : N) : bool := ident_start U c || is_num U c.
Definition identifier (U : unicode) (n : text) : Prop :=
  match n with [] => False | c :: r => ident_start U c = true /\ forall d, In d r -> ident_char U d = true end.
(** [s] is the identifier [name] (as long as possible) and then, up to white space, [rest]. *)
Definition named (U : unicode) (s name rest : text) : Prop :=
  identifier U name /\ exists r, s = name ++ r /\ rest = trim U r /\
    match r with [] => True | c :: _ => ident_char U c = false end.
(** [s] is [name ( body )], [body] without surrounding white space. *)
Definition applied (U : unicode) (s name body : text) : Prop :=
  exists b, named U s name (40 :: b ++ [41]) /\ body = trim U b.

(** Opening minus closing parentheses. *)
Fixpoint level (s : text) : Z :=
  match s with
  | [] => 0%Z
  | c :: r => Z.add (if c =? 40 then 1%Z else if c =? 41 then (-1)%Z else 0%Z) (level r)
  end.
(** Somewhere a parenthesis is closed that was not opened. *)
Definition overclosed (s : text) : Prop := exists p q, s = p ++ q /\ (level p < 0)%Z.
(** A text between two commas: parentheses paired, commas only inside them. *)
Definition piece (s : text) : Prop :=
  ~ overclosed s /\ level s = 0%Z /\ forall p q, s = p ++ 44 :: q -> (0 < level p)%Z.
(** The arguments of a body: its pieces, trimmed; an empty piece after the last comma does not count. *)
Definition arguments (U : unicode) (body : text) (args : list text) : Prop :=
  exists pieces lst, body = concat (map (fun p => p ++ [44]) pieces) ++ lst /\
    (forall p, In p pieces -> piece p) /\ piece lst /\
    args = map (trim U) pieces ++ match lst with [] => [] | _ => [trim U lst] end.

(** [' name ' = value], quoted. *)
Definition variant (U : unicode) (bits : Z) (a : text) (e : text * Z) : Prop :=
  exists v n x, a = v ++ 61 :: x /\ ~ In 61 v /\ trim U v = 39 :: n ++ [39] /\
    fst e = trim U n /\ signed_text bits (trim U x) (snd e).
(** A variant whose name is a single quote character. *)
Definition lone_quote (U : unicode) (a : text) : Prop :=
  exists v x, a = v ++ 61 :: x /\ ~ In 61 v /\ trim U v = [39].

Inductive plain_name : string -> ty -> Prop :=
| pn_i8 : plain_name "Int8" (TInt I8) | pn_i16 : plain_name "Int16" (TInt I16)
| pn_i32 : plain_name "Int32" (TInt I32) | pn_i64 : plain_name "Int64" (TInt I64)
| pn_i128 : plain_name "Int128" (TInt I128) | pn_i256 : plain_name "Int256" TInt256
| pn_bool : plain_name "Bool" (TUInt I8)
| pn_u8 : plain_name "UInt8" (TUInt I8) | pn_u16 : plain_name "UInt16" (TUInt I16)
| pn_u32 : plain_name "UInt32" (TUInt I32) | pn_u64 : plain_name "UInt64" (TUInt I64)
| pn_u128 : plain_name "UInt128" (TUInt I128) | pn_u256 : plain_name "UInt256" TUInt256
| pn_f32 : plain_name "Float32" TFloat32 | pn_f64 : plain_name "Float64" TFloat64 | pn_bf16 : plain_name "BFloat16" TBFloat16
| pn_string : plain_name "String" TString | pn_uuid : plain_name "UUID" TUuid | pn_date : plain_name "Date" TDate
| pn_datetime : plain_name "DateTime" (TDateTime UTC)
| pn_ip4 : plain_name "IPv4" TIpv4 | pn_ip6 : plain_name "IPv6" TIpv6
| pn_point : plain_name "Point" TPoint | pn_ring : plain_name "Ring" TRing
| pn_polygon : plain_name "Polygon" TPolygon | pn_multi : plain_name "MultiPolygon" TMultiPolygon.

Inductive scaled : string -> (N -> ty) -> Prop :=
| sc_32 : scaled "Decimal32" TDecimal32 | sc_64 : scaled "Decimal64" TDecimal64
| sc_128 : scaled "Decimal128" TDecimal128 | sc_256 : scaled "Decimal256" TDecimal256
| sc_fixed : scaled "FixedString" TFixedString.
(** Decimal(precision, scale) *)
Inductive decimal (p s : N) : ty -> Prop :=
| de_32 : p <= 9 -> decimal p s (TDecimal32 s)
| de_64 : 9 < p <= 18 -> decimal p s (TDecimal64 s)
| de_128 : 18 < p <= 38 -> decimal p s (TDecimal128 s)
| de_256 : 38 < p <= 76 -> decimal p s (TDecimal256 s).
Inductive wraps : string -> (ty -> ty) -> Prop :=
| wr_lc : wraps "LowCardinality" TLowCard | wr_array : wraps "Array" TArray | wr_null : wraps "Nullable" TNullable.
Inductive enums : string -> Z -> (list (text * Z) -> ty) -> Prop :=
| en_8 : enums "Enum8" 8 TEnum8 | en_16 : enums "Enum16" 16 TEnum16.

(** Which texts mean which type.  White space is allowed around every part. *)
Inductive reads (U : unicode) (D : tzdb) : text -> ty -> Prop :=
| rd_plain s n t : named U s (txt n) [] -> plain_name n t -> reads U D s t
| rd_scaled s n mk body a x : applied U s (txt n) body -> scaled n mk -> arguments U body [a] -> unsigned_text a x -> reads U D s (mk x)
| rd_decimal s body a b p x t : applied U s (txt "Decimal") body -> arguments U body [a; b] ->
    unsigned_text a p -> unsigned_text b x -> decimal p x t -> reads U D s t
| rd_datetime s body n z : applied U s (txt "DateTime") body -> arguments U body [39 :: n ++ [39]] -> tz_parse D n = Some z -> reads U D s (TDateTime z)
| rd_datetime64 s body a p n z : applied U s (txt "DateTime64") body -> arguments U body [a; 39 :: n ++ [39]] ->
    unsigned_text a p -> tz_parse D n = Some z -> reads U D s (TDateTime64 p z)
| rd_datetime64_utc s body a p : applied U s (txt "DateTime64") body -> arguments U body [a] -> unsigned_text a p -> reads U D s (TDateTime64 p UTC)
| rd_enum s nm bits mk body args items : applied U s (txt nm) body -> enums nm bits mk -> arguments U body args ->
    Forall2 (variant U bits) args items -> reads U D s (mk items)
| rd_wrap s n mk body a t : applied U s (txt n) body -> wraps n mk -> arguments U body [a] -> reads U D a t -> reads U D s (mk t)
| rd_tuple s body args ts : applied U s (txt "Tuple") body -> arguments U body args -> Forall2 (reads U D) args ts -> reads U D s (TTuple ts)
| rd_map s body a b k v : applied U s (txt "Map") body -> arguments U body [a; b] -> reads U D a k -> reads U D b v -> reads U D s (TMap k v).

(** Texts on which the parser panics. *)
Inductive panics (U : unicode) (D : tzdb) : text -> Prop :=
| px_paren s n body : applied U s n body -> overclosed body -> panics U D s
| px_zone s body : applied U s (txt "DateTime") body -> arguments U body [[39]] -> panics U D s
| px_zone64 s body a p : applied U s (txt "DateTime64") body -> arguments U body [a; [39]] -> unsigned_text a p -> panics U D s
| px_enum s nm bits mk body before a after items : applied U s (txt nm) body -> enums nm bits mk ->
    arguments U body (before ++ a :: after) -> Forall2 (variant U bits) before items -> lone_quote U a -> panics U D s
| px_wrap s n mk body a : applied U s (txt n) body -> wraps n mk -> arguments U body [a] -> panics U D a -> panics U D s
| px_tuple s body before a after ts : applied U s (txt "Tuple") body -> arguments U body (before ++ a :: after) ->
    Forall2 (reads U D) before ts -> panics U D a -> panics U D s
| px_map_key s body a b : applied U s (txt "Map") body -> arguments U body [a; b] -> panics U D a -> panics U D s
| px_map_value s body a b k : applied U s (txt "Map") body -> arguments U body [a; b] -> reads U D a k -> panics U D b -> panics U D s.
