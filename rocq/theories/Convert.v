(** Model of the conversions between Rust values and SQL values: convert/std_serialize.rs,
    convert/std_deserialize.rs, convert/vec_tuple.rs, convert/unit_value.rs, values/bytes.rs and
    the [ToSql]/[FromSql] impls of the wrapper types in values/*.rs. *)
From Verif Require Import Base Io Types Ser Deser Text Utf8 RawRow Numeric.

(** Rust types that are stored in exactly one variant of [Value] with the same content. *)
Inductive leaf :=
| LInt (w : iw) | LUInt (w : iw) | LI256 | LU256          (* i8..i128, u8..u128, i256, u256 *)
| LF32 | LF64 | LBf16
| LFixed32 (p : N) | LFixed64 (p : N) | LFixed128 (p : N) | LFixed256 (p : N)
| LUuid | LDate | LDateTime | LDateTime64 (p : N) | LIpv4 | LIpv6
| LPoint | LRing | LPolygon | LMultiPolygon.

(** Rust values.  A leaf is given by the SQL variant with the same content; a string by its
    characters; a map by its entries in iteration order. *)
Inductive rval :=
| XLeaf (v : value) | XBool (b : bool) | XStr (s : text) | XBytes (bs : list N) | XValue (v : value)
| XDec (d : dec) | XInstant (i : instant)
| XList (l : list rval) | XOpt (o : option rval) | XTuple (l : list rval) | XMap (l : list (rval * rval)).

(** The Rust types covered. [RVec], [RArr n], [RVecTuple] are [Vec<T>], [[T; n]], [VecTuple<T>];
    [RMap] stands for HashMap, BTreeMap and IndexMap. References and [&str] behave like their
    targets.  [RUser] is any other type: one with [ToSql] and [FromSql] implementations of the
    user's own (convert/mod.rs 19-21, 34-36), its values coded as [rval]s, the implementations
    arbitrary functions; with [by_attr] the conversions are functions named by the derive
    attributes [serialize_with] and [deserialize_with] of a field. *)
Inductive rty :=
| RLeaf (l : leaf) | RBool | RString | RBytes | RValue | RDecimal | RChrono
| RVec (r : rty) | RArr (n : N) (r : rty) | RVecTuple (r : rty) | ROpt (r : rty) | RBox (r : rty)
| RTuple (rs : list rty) | RMap (k v : rty)
| RUser (by_attr : bool) (to : rval -> option ty -> res value) (from : ty -> value -> res rval).

(** The type test at the head of each leaf's [from_sql] (std_deserialize.rs 13-183 and the
    wrapper types: values/fixed_point.rs 31-42, 57-68, 99-110, 141-152 with the scale compared to [PRECISION],
    int256.rs 27-37 and 80-90, ip.rs 88-98 and 106-116, date.rs 43-52, 130-140, 205-218 and 280-302,
    clickhouse_uuid.rs, bfloat16.rs 130-184 and geo.rs 76-95). *)
Definition leaf_type (l : leaf) (t : ty) : bool :=
  match l, t with
  | LInt w, TInt w' | LUInt w, TUInt w' => iw_eqb w w'
  | LI256, TInt256 | LU256, TUInt256 | LF32, TFloat32 | LF64, TFloat64 | LBf16, TBFloat16 => true
  | LFixed32 p, TDecimal32 s | LFixed64 p, TDecimal64 s | LFixed128 p, TDecimal128 s | LFixed256 p, TDecimal256 s => s =? p
  | LUuid, TUuid | LDate, TDate | LDateTime, TDateTime _ | LIpv4, TIpv4 | LIpv6, TIpv6 => true
  | LDateTime64 p, TDateTime64 s _ => s =? p
  | LPoint, TPoint | LRing, TRing | LPolygon, TPolygon | LMultiPolygon, TMultiPolygon => true
  | _, _ => false
  end.
(** The [match value] after it; other variants are [unimplemented!()]. Fixed-point and DateTime64
    take the number and drop the precision stored beside it: theirs is the type's. *)
Definition leaf_content (l : leaf) (v : value) : option value :=
  match l, v with
  | LInt w, VInt w' _ => if iw_eqb w w' then Some v else None
  | LUInt w, VUInt w' _ => if iw_eqb w w' then Some v else None
  | LI256, VInt256 _ | LU256, VUInt256 _ | LF32, VFloat32 _ | LF64, VFloat64 _ | LBf16, VBFloat16 _ => Some v
  | LFixed32 p, VDecimal32 _ x => Some (VDecimal32 p x)
  | LFixed64 p, VDecimal64 _ x => Some (VDecimal64 p x)
  | LFixed128 p, VDecimal128 _ x => Some (VDecimal128 p x)
  | LFixed256 p, VDecimal256 _ x => Some (VDecimal256 p x)
  | LUuid, VUuid _ | LDate, VDate _ | LDateTime, VDateTime _ _ | LIpv4, VIpv4 _ | LIpv6, VIpv6 _ => Some v
  | LDateTime64 p, VDateTime64 z x _ => Some (VDateTime64 z x p)
  | LPoint, VPoint _ | LRing, VRing _ | LPolygon, VPolygon _ | LMultiPolygon, VMultiPolygon _ => Some v
  | _, _ => None
  end.

(** [TypeId::of::<T>()] is u8 or i8 (std_serialize.rs 115-121, std_deserialize.rs 207-213) *)
Definition byte_type (r : rty) : option bool :=
  match r with RLeaf (LUInt I8) => Some false | RLeaf (LInt I8) => Some true | _ => None end.
(** [mem::transmute] between bytes and u8/i8 *)
Definition byte_of_rval (x : rval) : N :=
  match x with XLeaf (VUInt _ n) => n | XLeaf (VInt _ z) => s2u 8 z | _ => 0 end.
Definition rval_of_byte (signed : bool) (b : N) : rval :=
  if signed then XLeaf (VInt I8 (u2s 8 b)) else XLeaf (VUInt I8 b).

(** types/mod.rs 93-133 *)
Definition unarray (t : ty) : option ty := match t with TArray x => Some x | _ => None end.
Definition unmap (t : ty) : option (ty * ty) := match t with TMap k v => Some (k, v) | _ => None end.
Definition untuple (t : ty) : option (list ty) := match t with TTuple l => Some l | _ => None end.
Definition unnull (t : ty) : option ty := match t with TNullable x => Some x | _ => None end.
Definition obind {A B} (o : option A) (f : A -> option B) : option B := match o with Some a => f a | None => None end.

(** values/bytes.rs 11-27 *)
Definition bytes_to_sql (bs : list N) (h : option ty) : value :=
  match h with
  | Some (TArray (TUInt I8)) => VArray (map (VUInt I8) bs)
  | Some (TArray (TInt I8)) => VArray (map (fun b => VInt I8 (u2s 8 b)) bs)
  | _ => VString bs
  end.
(** values/bytes.rs 37-47: an unexpected element is reported with its guessed type. *)
Definition byte_from_value (v : value) : res N :=
  match v with
  | VUInt I8 x => Ok x
  | VInt I8 z => Ok (s2u 8 z)
  | _ => match guess_type v with Panic => Panic | _ => Err EDeser end
  end.
(** values/bytes.rs 29-53 *)
Definition bytes_from_sql (t : ty) (v : value) : res (list N) :=
  match t with
  | TString | TFixedString _ => match v with VString s => Ok s | _ => Panic end
  | TArray (TUInt I8) | TArray (TInt I8) => match v with VArray l => mapM byte_from_value l | _ => Panic end
  | _ => Err EDeser
  end.

(** Values that do not have the shape of their Rust type do not exist: [Panic] below is then
    arbitrary. *)
Fixpoint to_sql (r : rty) (x : rval) (h : option ty) {struct r} : res value :=
  match r, x with
  | RLeaf _, XLeaf v => Ok v
  | RBool, XBool b => Ok (VUInt I8 (if b then 1 else 0))           (* std_serialize.rs 18-22 *)
  | RString, XStr s => Ok (VString (utf8 s))                        (* 98-108 *)
  | RBytes, XBytes bs => Ok (bytes_to_sql bs h)
  | RValue, XValue v => Ok v                                        (* convert/mod.rs 23-27 *)
  | RDecimal, XDec d => dec_to_sql d h
  | RChrono, XInstant i => chrono_to_sql i
  | RVec r', XList l =>                                             (* 110-131 *)
      let h' := option_map strip_low_cardinality (obind h unarray) in
      match h', byte_type r' with
      | Some TString, Some _ | Some (TFixedString _), Some _ => Ok (VString (map byte_of_rval l))
      | _, _ => vs <- mapM (fun x => to_sql r' x h') l ;; Ok (VArray vs)
      end
  | RArr _ r', XList l =>                                           (* 184-195 *)
      let h' := option_map strip_low_cardinality (obind h unarray) in
      vs <- mapM (fun x => to_sql r' x h') l ;; Ok (VArray vs)
  | RVecTuple r', XList l =>                                        (* vec_tuple.rs 9-19 *)
      vs <- (fix go (i : nat) l := match l with
             | [] => Ok []
             | x :: l' => v <- to_sql r' x (obind (obind h untuple) (fun ts => nth_error ts i)) ;; vs <- go (S i) l' ;; Ok (v :: vs)
             end) O l ;; Ok (VTuple vs)
  | ROpt r', XOpt o =>                                              (* 175-182 *)
      match o with None => Ok VNull | Some x => to_sql r' x (obind h unnull) end
  | RBox r', x => to_sql r' x h                                     (* 209-213 *)
  | RTuple rs, XTuple l =>                                          (* 215-231 *)
      vs <- (fix go (i : nat) rs l := match rs, l with
             | r1 :: rs', x :: l' => v <- to_sql r1 x (obind (obind h untuple) (fun ts => nth_error ts i)) ;; vs <- go (S i) rs' l' ;; Ok (v :: vs)
             | [], [] => Ok []
             | _, _ => Panic
             end) O rs l ;; Ok (VTuple vs)
  | RMap rk rv, XMap l =>                                           (* 133-173 *)
      let h' := obind h unmap in
      kvs <- mapM (fun kv => k <- to_sql rk (fst kv) (option_map fst h') ;; v <- to_sql rv (snd kv) (option_map snd h') ;; Ok (k, v)) l ;;
      Ok (VMap (map fst kvs) (map snd kvs))
  | RUser _ to _, x => to x h
  | _, _ => Panic
  end.

Definition point_eq_dec (a b : point) : {a = b} + {a <> b}.
Proof. decide equality; apply N.eq_dec. Defined.
Fixpoint value_eq_dec (a b : value) {struct a} : {a = b} + {a <> b}.
Proof.
  decide equality; try apply N.eq_dec; try apply Z.eq_dec; try (apply list_eq_dec; apply N.eq_dec);
    try (apply list_eq_dec; apply value_eq_dec); try apply point_eq_dec; try (apply list_eq_dec; apply point_eq_dec);
    try (apply list_eq_dec; apply list_eq_dec; apply point_eq_dec);
    try (apply list_eq_dec; apply list_eq_dec; apply list_eq_dec; apply point_eq_dec); decide equality.
Defined.
Definition pair_eq_dec {A} (d : forall a b : A, {a = b} + {a <> b}) (p q : A * A) : {p = q} + {p <> q}.
Proof. decide equality. Defined.
Definition option_eq_dec {A} (d : forall a b : A, {a = b} + {a <> b}) (p q : option A) : {p = q} + {p <> q}.
Proof. decide equality. Defined.
Fixpoint rval_eq_dec (a b : rval) {struct a} : {a = b} + {a <> b}.
Proof.
  decide equality; try apply value_eq_dec; try apply Bool.bool_dec; try (apply list_eq_dec; apply N.eq_dec);
    try (apply list_eq_dec; apply rval_eq_dec); try (apply list_eq_dec; apply pair_eq_dec; apply rval_eq_dec);
    try (apply option_eq_dec; apply rval_eq_dec); decide equality; try apply N.eq_dec; apply Z.eq_dec.
Defined.

(** [insert] of the map types: replaces the value of an equal key, else adds the entry. (Key
    equality is structural: true for the key types that implement [Eq].) *)
Fixpoint rmap_insert (k v : rval) (m : list (rval * rval)) : list (rval * rval) :=
  match m with
  | [] => [(k, v)]
  | (k', v') :: m' => if rval_eq_dec k k' then (k', v) :: m' else (k', v') :: rmap_insert k v m'
  end.

Definition rstring_from (v : value) : res rval :=
  match v with VString bs => match utf8_decode bs with Some s => Ok (XStr s) | None => Err EUtf8 end | _ => Panic end.

Fixpoint from_sql (r : rty) (t : ty) (v : value) {struct r} : res rval :=
  match r with
  | RLeaf l => if leaf_type l t then match leaf_content l v with Some x => Ok (XLeaf x) | None => Panic end else Err EDeser
  | RBool => match t with TUInt I8 => match v with VUInt I8 x => Ok (XBool (negb (x =? 0))) | _ => Panic end | _ => Err EDeser end
  | RString => match t with TString | TFixedString _ => rstring_from v | _ => Err EDeser end
  | RBytes => bs <- bytes_from_sql t v ;; Ok (XBytes bs)
  | RValue => Ok (XValue v)
  | RDecimal => d <- dec_from_sql v ;; Ok (XDec d)
  | RChrono => i <- chrono_from_sql t v ;; Ok (XInstant i)
  | RVec r' =>                                                      (* std_deserialize.rs 199-222 *)
      match t with
      | TArray x =>
          let sub := strip_low_cardinality x in
          match v with
          | VString bs =>
              match sub with
              | TUInt I8 | TInt I8 =>
                  match byte_type r' with Some s => Ok (XList (map (rval_of_byte s) bs)) | None => Err EDeser end
              | _ => Panic
              end
          | VArray l => xs <- mapM (from_sql r' sub) l ;; Ok (XList xs)
          | _ => Panic
          end
      | _ => Err EDeser
      end
  | RArr n r' =>                                                    (* 300-325 *)
      match t with
      | TArray x =>
          match v with
          | VArray l => if lenN l =? n then xs <- mapM (from_sql r' (strip_low_cardinality x)) l ;; Ok (XList xs) else Err EDeser
          | _ => Panic
          end
      | _ => Err EDeser
      end
  | RVecTuple r' =>                                                 (* vec_tuple.rs 21-46 *)
      match t with
      | TTuple ts =>
          match v with
          | VTuple vs =>
              if lenN vs =? lenN ts
              then xs <- mapM (fun tv => from_sql r' (fst tv) (snd tv)) (combine ts vs) ;; Ok (XList xs)
              else Err EDeser
          | _ => Panic
          end
      | _ => Err EDeser
      end
  | ROpt r' =>                                                      (* 286-298 *)
      let sub := match t with TNullable x => strip_low_cardinality x | x => x end in
      match v with VNull => Ok (XOpt None) | _ => x <- from_sql r' sub v ;; Ok (XOpt (Some x)) end
  | RBox r' => from_sql r' t v                                      (* 327-331 *)
  | RTuple rs =>                                                    (* 333-362 *)
      match t with
      | TTuple ts =>
          match v with
          | VTuple vs =>
              if negb (lenN vs =? lenN ts) then Err EDeser
              else if negb (lenN vs =? lenN rs) then Err EDeser
              else xs <- (fix go rs ts vs := match rs, ts, vs with
                          | r1 :: rs', t1 :: ts', v1 :: vs' =>
                              x <- from_sql r1 (strip_low_cardinality t1) v1 ;; xs <- go rs' ts' vs' ;; Ok (x :: xs)
                          | _, _, _ => Ok []
                          end) rs ts vs ;; Ok (XTuple xs)
          | _ => Panic
          end
      | _ => Err EDeser
      end
  | RMap rk rv =>                                                   (* 224-284 *)
      match t with
      | TMap tk tv =>
          match v with
          | VMap ks vs =>
              kvs <- mapM (fun p => k <- from_sql rk (strip_low_cardinality tk) (fst p) ;;
                                    w <- from_sql rv (strip_low_cardinality tv) (snd p) ;; Ok (k, w)) (combine ks vs) ;;
              Ok (XMap (fold_left (fun m kv => rmap_insert (fst kv) (snd kv) m) kvs []))
          | _ => Panic
          end
      | _ => Err EDeser
      end
  | RUser _ _ from => from t v
  end.

(** convert/unit_value.rs 9-38: a row of one column. *)
Definition unit_deserialize (r : rty) (m : list (text * ty * value)) : res rval :=
  match m with [] => Err (EMissingField [60; 117; 110; 105; 116; 62]) | (_, t, v) :: _ => from_sql r t v end.
Definition unit_serialize (r : rty) (x : rval) (hints : list (text * ty)) : res (list (text * value)) :=
  v <- to_sql r x (match hints with [] => None | (_, t) :: _ => Some t end) ;; Ok [([95], v)].
