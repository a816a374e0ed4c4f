(** Model of klickhouse/src/types/serialize/ and of the writer half of types/mod.rs.
    A serializer returns the bytes it writes; I/O errors of the sink are not modelled,
    so the only failure is [Panic]. *)
From Verif Require Import Base Io Types.

(** [&bytes[..n]] / [Iterator::take(n)], counting in [N]. *)
Fixpoint takeN {A} (n : N) (l : list A) {struct l} : list A :=
  match l with [] => [] | x :: t => if n =? 0 then [] else x :: takeN (N.pred n) t end.
Fixpoint dropN {A} (n : N) (l : list A) {struct l} : list A :=
  match l with [] => [] | x :: t => if n =? 0 then l else dropN (N.pred n) t end.

(** serialize/sized.rs 22-57: the bytes of one value (the [match] is on the value).
    sized.rs 9-12 [swap_endian_256] is [rev]. *)
Definition enc_sized (v : value) : res (list N) :=
  match v with
  | VInt w x => Ok (le_bytes (ibytes w) (s2u (ibits w) x))
  | VInt256 be => Ok (rev be)
  | VUInt w x => Ok (le_bytes (ibytes w) x)
  | VUInt256 be => Ok (rev be)
  | VFloat32 bits => Ok (le_bytes 4 bits)
  | VFloat64 bits => Ok (le_bytes 8 bits)
  | VBFloat16 bits => Ok (le_bytes 2 bits)
  | VDecimal32 _ x => Ok (le_bytes 4 (s2u 32 x))
  | VDecimal64 _ x => Ok (le_bytes 8 (s2u 64 x))
  | VDecimal128 _ x => Ok (le_bytes 16 (s2u 128 x))
  | VDecimal256 _ be => Ok (rev be)
  | VUuid n => Ok (le_bytes 8 (N.shiftr n 64) ++ le_bytes 8 (n mod 2 ^ 64))
  | VDate d => Ok (le_bytes 2 d)
  | VDateTime _ t => Ok (le_bytes 4 t)
  | VDateTime64 _ t _ => Ok (le_bytes 8 t)
  | VIpv4 n => Ok (le_bytes 4 n)
  | VIpv6 octets => Ok octets
  | VEnum8 x => Ok (le_bytes 1 (s2u 8 x))
  | VEnum16 x => Ok (le_bytes 2 (s2u 16 x))
  | _ => Panic
  end.

(** serialize/sized.rs 15-60 *)
Definition ser_sized (t : ty) (vs : list value) : res (list N) :=
  rmap (@concat N) (mapM (fun v => enc_sized (justify_null t v)) vs).

(** serialize/string.rs 9-24 [emit_bytes] *)
Definition emit_bytes (t : ty) (bytes : list N) : list N :=
  match t with
  | TFixedString s =>
      if s <=? lenN bytes then takeN s bytes
      else bytes ++ repeat 0 (N.to_nat (s - lenN bytes))
  | _ => write_string bytes
  end.

(** serialize/string.rs 40-47: the byte of a [Value::UInt8]/[Value::Int8] element. *)
Definition byte_of_value (v : value) : res N :=
  match v with VUInt I8 x => Ok x | VInt I8 x => Ok (s2u 8 x) | _ => Panic end.

(** serialize/string.rs 26-55 *)
Definition enc_string (t : ty) (v : value) : res (list N) :=
  match justify_null t v with
  | VString bs => Ok (emit_bytes t bs)
  | VArray items => bs <- mapM byte_of_value items ;; Ok (emit_bytes t bs)
  | _ => Panic
  end.
Definition ser_string (t : ty) (vs : list value) : res (list N) :=
  rmap (@concat N) (mapM (enc_string t) vs).

(** serialize/array.rs 41-45: running totals of the lengths. *)
Fixpoint offsets_from (acc : N) (lens : list N) : list N :=
  match lens with [] => [] | n :: t => (acc + n) :: offsets_from (acc + n) t end.
Definition u64s (l : list N) : list N := concat (map (le_bytes 8) l).

(** serialize/array.rs 33-54, generic over [value_len]/[values] (one [unwrap]) and
    over the serializer of the element column. *)
Definition ser_array_generic (unwrap : value -> res (list value))
    (inner : list value -> res (list N)) (vs : list value) : res (list N) :=
  ls <- mapM unwrap vs ;;
  body <- inner (concat ls) ;;
  Ok (u64s (offsets_from 0 (map lenN ls)) ++ body).

(** values/mod.rs 214-226 [unwrap_array], 228-233 [unwrap_tuple] *)
Definition unwrap_array (v : value) : res (list value) := match v with VArray l => Ok l | _ => Panic end.
Definition unwrap_tuple (v : value) : res (list value) := match v with VTuple l => Ok l | _ => Panic end.
(** serialize/map.rs 45-49, with the [assert_eq!] on the lengths *)
Definition unwrap_map (v : value) : res (list value * list value) :=
  match v with VMap ks vs => if lenN ks =? lenN vs then Ok (ks, vs) else Panic | _ => Panic end.

(** serialize/geo.rs 20-43 *)
Definition unwrap_point (v : value) : res point := match v with VPoint p => Ok p | _ => Panic end.
Definition ser_point (vs : list value) : res (list N) :=
  ps <- mapM unwrap_point vs ;;
  xs <- ser_sized TFloat64 (map (fun p => VFloat64 (fst p)) ps) ;;
  ys <- ser_sized TFloat64 (map (fun p => VFloat64 (snd p)) ps) ;;
  Ok (xs ++ ys).

(** serialize/geo.rs 46-76 [array_ser!] *)
Definition unwrap_ring (v : value) : res (list value) := match v with VRing r => Ok (map VPoint r) | _ => Panic end.
Definition unwrap_polygon (v : value) : res (list value) := match v with VPolygon r => Ok (map VRing r) | _ => Panic end.
Definition unwrap_multipolygon (v : value) : res (list value) :=
  match v with VMultiPolygon r => Ok (map VPolygon r) | _ => Panic end.
Definition ser_ring := ser_array_generic unwrap_ring ser_point.
Definition ser_polygon := ser_array_generic unwrap_polygon ser_ring.
Definition ser_multipolygon := ser_array_generic unwrap_multipolygon ser_polygon.

(* ---------------- LowCardinality ---------------- *)

(** types/low_cardinality.rs 1-10 *)
Definition NEED_GLOBAL_DICTIONARY_BIT : N := N.shiftl 1 8.
Definition HAS_ADDITIONAL_KEYS_BIT : N := N.shiftl 1 9.
Definition NEED_UPDATE_DICTIONARY_BIT : N := N.shiftl 1 10.
Definition TUINT8 : N := 0.
Definition TUINT16 : N := 1.
Definition TUINT32 : N := 2.
Definition TUINT64 : N := 3.
Definition LOW_CARDINALITY_VERSION : N := 1.

(** [IndexSet::insert]: append unless an equal element is present.  The real set
    looks elements up by hash first; for the types [validate] allows inside
    LowCardinality equal values hash alike, so the hash is omitted. *)
Definition index_insert (keys : list value) (v : value) : list value :=
  if existsb (value_eqb v) keys then keys else keys ++ [v].
(** [IndexSet::get_index_of] *)
Fixpoint index_of (v : value) (keys : list value) : option N :=
  match keys with
  | [] => None
  | k :: t => if value_eqb v k then Some 0 else option_map N.succ (index_of v t)
  end.

(** serialize/low_cardinality.rs 42-49: the dictionary. *)
Definition lc_keys (nullable : bool) (vs : list value) : list value :=
  fold_left index_insert vs (if nullable then [VNull] else []).

(** serialize/low_cardinality.rs 52-60: the index width for a dictionary of [n] keys,
    as the flag and as the number of bytes of one index (71-79). *)
Definition lc_index_flag (n : N) : N :=
  if 2 ^ 32 - 1 <? n then TUINT64 else if 2 ^ 16 - 1 <? n then TUINT32
  else if 2 ^ 8 - 1 <? n then TUINT16 else TUINT8.
Definition lc_index_bytes (n : N) : nat :=
  if 2 ^ 32 - 1 <? n then 8 else if 2 ^ 16 - 1 <? n then 4
  else if 2 ^ 8 - 1 <? n then 2 else 1%nat.

Definition lc_index (keys : list value) (v : value) : res (list N) :=
  match index_of v keys with
  | Some i => Ok (le_bytes (lc_index_bytes (lenN keys)) i)   (* [as u8] ... truncates *)
  | None => Panic
  end.

(** serialize/low_cardinality.rs 22-83, given whether the inner type is Nullable and
    the serializer of the stripped inner type. *)
Definition ser_low_card (nullable : bool) (inner : list value -> res (list N)) (vs : list value) : res (list N) :=
  match vs with
  | [] => Ok []
  | _ =>
    let keys := lc_keys nullable vs in
    let flags := N.lor (lc_index_flag (lenN keys)) HAS_ADDITIONAL_KEYS_BIT in
    body <- inner keys ;;
    idx <- mapM (lc_index keys) vs ;;
    Ok (le_bytes 8 flags ++ le_bytes 8 (lenN keys) ++ body ++ le_bytes 8 (lenN vs) ++ concat idx)
  end.

(* ---------------- dispatch ---------------- *)

(** serialize/tuple.rs 37-43: [columns[i].push(value)] for every row, column by column:
    the first column holds the heads of the rows that have one, the others the tails. *)
Definition heads (rows : list (list value)) : list value :=
  flat_map (fun r => match r with [] => [] | x :: _ => [x] end) rows.
Definition tails (rows : list (list value)) : list (list value) := map (@tl value) rows.

(** types/mod.rs 738-806 [serialize_column], dispatching to serialize/sized.rs, string.rs, array.rs 33-55, geo.rs,
    nullable.rs 9-28 (the mask, then the inner column with the nulls replaced by the default), map.rs 16-61 (the offsets,
    then the keys, then the values), tuple.rs 24-48 (one inner column after the other) and low_cardinality.rs 20-83. *)
Fixpoint ser (t : ty) (vs : list value) {struct t} : res (list N) :=
  match t with
  | TString | TFixedString _ => ser_string t vs
  | TArray t' => ser_array_generic unwrap_array (ser t') vs
  | TTuple ts =>
      rows <- mapM unwrap_tuple vs ;;
      if existsb (fun r => lenN ts <? lenN r) rows then Panic  (* columns[i] out of bounds *)
      else
        (fix go (ts : list ty) (rows : list (list value)) : res (list N) :=
           match ts with
           | [] => Ok []
           | t1 :: ts' => b <- ser t1 (heads rows) ;; bs <- go ts' (tails rows) ;; Ok (b ++ bs)
           end) ts rows
  | TPoint => ser_point vs
  | TRing => ser_ring vs
  | TPolygon => ser_polygon vs
  | TMultiPolygon => ser_multipolygon vs
  | TNullable t' =>
      let mask := map (fun v => if is_null v then 1 else 0) vs in
      body <- ser t' vs ;; Ok (mask ++ body)
  | TMap k v =>
      kvs <- mapM unwrap_map vs ;;
      kb <- ser k (concat (map fst kvs)) ;;
      vb <- ser v (concat (map snd kvs)) ;;
      Ok (u64s (offsets_from 0 (map (fun kv => lenN (fst kv)) kvs)) ++ kb ++ vb)
  | TLowCard inner =>
      match inner with
      | TNullable x => ser_low_card true (ser x) vs
      | _ => ser_low_card false (ser inner) vs
      end
  | _ => ser_sized t vs
  end.

(** types/mod.rs 808-871 [serialize_prefix]; serialize/nullable.rs has no [write_prefix]
    of its own, so the default (nothing, types/mod.rs 1089-1095) applies. *)
Fixpoint ser_prefix (t : ty) : list N :=
  match t with
  | TArray t' => ser_prefix t'
  | TTuple ts => flat_map ser_prefix ts
  | TMap k v => ser_prefix k ++ ser_prefix v     (* as Array(Tuple(k, v)), map.rs 15-27 *)
  | TLowCard _ => le_bytes 8 LOW_CARDINALITY_VERSION
  | _ => []
  end.
