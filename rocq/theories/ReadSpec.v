(** What it means that an SQL value [v] of column type [t], read as the Rust type [r], is the Rust
    value [x]: one rule for each pairing of a Rust type and a column type that the library
    documents.  No conversion function of the model is used, except for Rust decimals and chrono
    date-times, whose own properties (C58, C36) say what those two compute. *)
From Verif Require Import Base Io Types Utf8 ColumnSpec Convert Numeric.

(** Rust types with the content of one SQL type. *)
Inductive leaf_reads : leaf -> ty -> value -> value -> Prop :=
| lr_int w z : leaf_reads (LInt w) (TInt w) (VInt w z) (VInt w z)
| lr_uint w n : leaf_reads (LUInt w) (TUInt w) (VUInt w n) (VUInt w n)
| lr_i256 bs : leaf_reads LI256 TInt256 (VInt256 bs) (VInt256 bs)
| lr_u256 bs : leaf_reads LU256 TUInt256 (VUInt256 bs) (VUInt256 bs)
| lr_f32 b : leaf_reads LF32 TFloat32 (VFloat32 b) (VFloat32 b)
| lr_f64 b : leaf_reads LF64 TFloat64 (VFloat64 b) (VFloat64 b)
| lr_bf16 b : leaf_reads LBf16 TBFloat16 (VBFloat16 b) (VBFloat16 b)
| lr_fixed32 p q z : leaf_reads (LFixed32 p) (TDecimal32 p) (VDecimal32 q z) (VDecimal32 p z)
| lr_fixed64 p q z : leaf_reads (LFixed64 p) (TDecimal64 p) (VDecimal64 q z) (VDecimal64 p z)
| lr_fixed128 p q z : leaf_reads (LFixed128 p) (TDecimal128 p) (VDecimal128 q z) (VDecimal128 p z)
| lr_fixed256 p q z : leaf_reads (LFixed256 p) (TDecimal256 p) (VDecimal256 q z) (VDecimal256 p z)
| lr_uuid n : leaf_reads LUuid TUuid (VUuid n) (VUuid n)
| lr_date n : leaf_reads LDate TDate (VDate n) (VDate n)
| lr_datetime z z' n : leaf_reads LDateTime (TDateTime z) (VDateTime z' n) (VDateTime z' n)
| lr_datetime64 p q z z' n : leaf_reads (LDateTime64 p) (TDateTime64 p z) (VDateTime64 z' n q) (VDateTime64 z' n p)
| lr_ipv4 n : leaf_reads LIpv4 TIpv4 (VIpv4 n) (VIpv4 n)
| lr_ipv6 n : leaf_reads LIpv6 TIpv6 (VIpv6 n) (VIpv6 n)
| lr_point p : leaf_reads LPoint TPoint (VPoint p) (VPoint p)
| lr_ring p : leaf_reads LRing TRing (VRing p) (VRing p)
| lr_polygon p : leaf_reads LPolygon TPolygon (VPolygon p) (VPolygon p)
| lr_multipolygon p : leaf_reads LMultiPolygon TMultiPolygon (VMultiPolygon p) (VMultiPolygon p).

(** The signed number of eight bits with the bit pattern [b]. *)
Definition signed_byte (b : N) (z : Z) : Prop := (-128 <= z < 128)%Z /\ (z = Z.of_N b \/ z = Z.of_N b - 256)%Z.
(** An element of an array of bytes. *)
Inductive byte_element : value -> N -> Prop :=
| be_unsigned n : byte_element (VUInt I8 n) n
| be_signed z b : b < 256 -> signed_byte b z -> byte_element (VInt I8 z) b.
(** A byte as an element of [Vec<u8>] or [Vec<i8>]. *)
Inductive byte_item : rty -> N -> rval -> Prop :=
| bi_unsigned b : byte_item (RLeaf (LUInt I8)) b (XLeaf (VUInt I8 b))
| bi_signed b z : signed_byte b z -> byte_item (RLeaf (LInt I8)) b (XLeaf (VInt I8 z)).

Definition string_type (t : ty) : Prop := t = TString \/ exists n, t = TFixedString n.
Definition byte_ty (t : ty) : Prop := t = TUInt I8 \/ t = TInt I8.

(** [m] has each key of [kvs] once, with the value that key has last. *)
Definition last_values (kvs m : list (rval * rval)) : Prop :=
  NoDup (map fst m) /\
  forall k w, In (k, w) m <-> exists l1 l2, kvs = l1 ++ (k, w) :: l2 /\ ~ In k (map fst l2).

(** LowCardinality is an encoding: a component is read at the type inside. *)
Inductive reads : rty -> ty -> value -> rval -> Prop :=
| rd_leaf l t v w : leaf_reads l t v w -> reads (RLeaf l) t v (XLeaf w)
| rd_bool n b : (b = true <-> n <> 0) -> reads RBool (TUInt I8) (VUInt I8 n) (XBool b)
| rd_string t s : string_type t -> forallb scalar s = true -> reads RString t (VString (utf8 s)) (XStr s)
| rd_bytes t bs : string_type t -> reads RBytes t (VString bs) (XBytes bs)
| rd_bytes_array t l bs : byte_ty t -> Forall2 byte_element l bs -> reads RBytes (TArray t) (VArray l) (XBytes bs)
| rd_value t v : reads RValue t v (XValue v)
| rd_decimal t v d : dec_from_sql v = Ok d -> reads RDecimal t v (XDec d)
| rd_chrono t v i : chrono_from_sql t v = Ok i -> reads RChrono t v (XInstant i)
| rd_vec r t l xs : Forall2 (reads r (strip_low_cardinality t)) l xs -> reads (RVec r) (TArray t) (VArray l) (XList xs)
| rd_vec_string r t bs xs : byte_ty (strip_low_cardinality t) -> Forall2 (byte_item r) bs xs ->
    (r = RLeaf (LUInt I8) \/ r = RLeaf (LInt I8)) -> reads (RVec r) (TArray t) (VString bs) (XList xs)
| rd_arr n r t l xs : lenN l = n -> Forall2 (reads r (strip_low_cardinality t)) l xs -> reads (RArr n r) (TArray t) (VArray l) (XList xs)
| rd_vec_tuple r ts l xs : read_each (repeat r (length l)) ts l xs -> reads (RVecTuple r) (TTuple ts) (VTuple l) (XList xs)
| rd_none r t : reads (ROpt r) t VNull (XOpt None)
| rd_some r t v x : v <> VNull -> reads r (strip_low_cardinality t) v x -> reads (ROpt r) (TNullable t) v (XOpt (Some x))
| rd_some_plain r t v x : v <> VNull -> (forall t', t <> TNullable t') -> reads r t v x -> reads (ROpt r) t v (XOpt (Some x))
| rd_box r t v x : reads r t v x -> reads (RBox r) t v x
| rd_tuple rs ts l xs : read_each rs (map strip_low_cardinality ts) l xs -> reads (RTuple rs) (TTuple ts) (VTuple l) (XTuple xs)
| rd_map rk rv tk tv ks vs kvs m :
    read_entries rk rv (strip_low_cardinality tk) (strip_low_cardinality tv) ks vs kvs -> last_values kvs m ->
    reads (RMap rk rv) (TMap tk tv) (VMap ks vs) (XMap m)
| rd_user a to from t v x : from t v = Ok x -> reads (RUser a to from) t v x    (* the user's own conversion *)
(** as many Rust types, column types, values and results, each read by its own *)
with read_each : list rty -> list ty -> list value -> list rval -> Prop :=
| re_nil : read_each [] [] [] []
| re_cons r rs t ts v vs x xs : reads r t v x -> read_each rs ts vs xs -> read_each (r :: rs) (t :: ts) (v :: vs) (x :: xs)
(** the i-th key with the i-th value, while there are both *)
with read_entries : rty -> rty -> ty -> ty -> list value -> list value -> list (rval * rval) -> Prop :=
| rn_nokey rk rv tk tv vs : read_entries rk rv tk tv [] vs []
| rn_novalue rk rv tk tv ks : read_entries rk rv tk tv ks [] []
| rn_cons rk rv tk tv k ks v vs x y kvs : reads rk tk k x -> reads rv tv v y -> read_entries rk rv tk tv ks vs kvs ->
    read_entries rk rv tk tv (k :: ks) (v :: vs) ((x, y) :: kvs).

(** No map inside (the entries of a map are given in no particular order). *)
Fixpoint no_map (r : rty) : bool :=
  match r with
  | RMap _ _ => false
  | RVec r' | RArr _ r' | RVecTuple r' | ROpt r' | RBox r' => no_map r'
  | RTuple rs => forallb no_map rs
  | _ => true
  end.
