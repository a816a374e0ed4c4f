(** Which types are valid and which values belong to a type (C68), as rules. *)
From Verif Require Import Base Types.
Local Open Scope list_scope.
Local Open Scope N_scope.

(** Plain types: those that are not built from others and have no restricted parameter. *)
Inductive plain : ty -> Prop :=
| p_int w : plain (TInt w) | p_int256 : plain TInt256 | p_uint w : plain (TUInt w) | p_uint256 : plain TUInt256
| p_f32 : plain TFloat32 | p_f64 : plain TFloat64 | p_bf : plain TBFloat16
| p_str : plain TString | p_fix n : plain (TFixedString n) | p_uuid : plain TUuid
| p_date : plain TDate | p_dt z : plain (TDateTime z) | p_ip4 : plain TIpv4 | p_ip6 : plain TIpv6
| p_point : plain TPoint | p_ring : plain TRing | p_poly : plain TPolygon | p_mpoly : plain TMultiPolygon
| p_e8 l : plain (TEnum8 l) | p_e16 l : plain (TEnum16 l).

(** What LowCardinality may be made of. *)
Inductive low_card : ty -> Prop :=
| l_str : low_card TString | l_fix n : low_card (TFixedString n) | l_date : low_card TDate | l_dt z : low_card (TDateTime z)
| l_ip4 : low_card TIpv4 | l_ip6 : low_card TIpv6
| l_int w : low_card (TInt w) | l_int256 : low_card TInt256 | l_uint w : low_card (TUInt w) | l_uint256 : low_card TUInt256.

(** What a map may be keyed by (any LowCardinality included). *)
Inductive map_key : ty -> Prop :=
| k_str : map_key TString | k_fix n : map_key (TFixedString n)
| k_int w : map_key (TInt w) | k_int256 : map_key TInt256 | k_uint w : map_key (TUInt w) | k_uint256 : map_key TUInt256
| k_lc t : map_key (TLowCard t) | k_uuid : map_key TUuid | k_date : map_key TDate | k_dt z : map_key (TDateTime z)
| k_dt64 p z : map_key (TDateTime64 p z) | k_e8 l : map_key (TEnum8 l) | k_e16 l : map_key (TEnum16 l).

Inductive valid_type : ty -> Prop :=
| v_plain t : plain t -> valid_type t
| v_d32 p : 1 <= p <= 9 -> valid_type (TDecimal32 p)
| v_d64 p : 1 <= p <= 18 -> valid_type (TDecimal64 p)
| v_d128 p : 1 <= p <= 38 -> valid_type (TDecimal128 p)
| v_d256 p : 1 <= p <= 76 -> valid_type (TDecimal256 p)
| v_dt64 p z : 1 <= p <= 18 -> valid_type (TDateTime64 p z)
| v_lc t : low_card t -> valid_type (TLowCard t)
| v_lc_null t : low_card t -> valid_type (TLowCard (TNullable t))
| v_array t : valid_type t -> valid_type (TArray t)
| v_tuple ts : (forall t, In t ts -> valid_type t) -> valid_type (TTuple ts)
| v_null t : valid_type t -> (forall u, t <> TArray u) -> (forall k v, t <> TMap k v) -> (forall u, t <> TLowCard u) ->
    (forall us, t <> TTuple us) -> (forall u, t <> TNullable u) -> valid_type (TNullable t)
| v_map k v : map_key k -> valid_type k -> valid_type v -> valid_type (TMap k v).

(** Which values belong to a type.  A tuple is only looked at as far as both the type and the
    value go, the two halves of a map are looked at separately (the findings of C13). *)
Inductive belongs : ty -> value -> Prop :=
| b_int w x : belongs (TInt w) (VInt w x)
| b_bool x : belongs (TInt I8) (VUInt I8 x)
| b_int256 be : belongs TInt256 (VInt256 be)
| b_uint w x : belongs (TUInt w) (VUInt w x)
| b_uint256 be : belongs TUInt256 (VUInt256 be)
| b_f32 x : belongs TFloat32 (VFloat32 x) | b_f64 x : belongs TFloat64 (VFloat64 x) | b_bf x : belongs TBFloat16 (VBFloat16 x)
| b_d32 p x : belongs (TDecimal32 p) (VDecimal32 p x) | b_d64 p x : belongs (TDecimal64 p) (VDecimal64 p x)
| b_d128 p x : belongs (TDecimal128 p) (VDecimal128 p x) | b_d256 p be : belongs (TDecimal256 p) (VDecimal256 p be)
| b_str bs : belongs TString (VString bs) | b_fix n bs : belongs (TFixedString n) (VString bs)
| b_str_bytes l : (forall v, In v l -> exists x, v = VUInt I8 x \/ exists y, v = VInt I8 y) -> belongs TString (VArray l)
| b_fix_bytes n l : (forall v, In v l -> exists x, v = VUInt I8 x \/ exists y, v = VInt I8 y) -> belongs (TFixedString n) (VArray l)
| b_uuid n : belongs TUuid (VUuid n) | b_date d : belongs TDate (VDate d)
| b_dt z t : belongs (TDateTime z) (VDateTime z t) | b_dt64 p z t : belongs (TDateTime64 p z) (VDateTime64 z t p)
| b_ip4 n : belongs TIpv4 (VIpv4 n) | b_ip6 o : belongs TIpv6 (VIpv6 o)
| b_point p : belongs TPoint (VPoint p) | b_ring p : belongs TRing (VRing p)
| b_poly p : belongs TPolygon (VPolygon p) | b_mpoly p : belongs TMultiPolygon (VMultiPolygon p)
| b_e8 l name x : In (name, x) l -> belongs (TEnum8 l) (VEnum8 x)
| b_e16 l name x : In (name, x) l -> belongs (TEnum16 l) (VEnum16 x)
| b_lc t v : belongs t v -> belongs (TLowCard t) v
| b_null t : belongs (TNullable t) VNull
| b_some t v : belongs t v -> belongs (TNullable t) v
| b_array t vs : (forall v, In v vs -> belongs t v) -> belongs (TArray t) (VArray vs)
| b_tuple ts vs : (forall i t v, nth_error ts i = Some t -> nth_error vs i = Some v -> belongs t v) -> belongs (TTuple ts) (VTuple vs)
| b_map k w ks vs : (forall v, In v ks -> belongs k v) -> (forall v, In v vs -> belongs w v) -> belongs (TMap k w) (VMap ks vs).

(** The default value of a type (C15): zero, empty or NULL, with the parameters of the type. *)
Inductive is_default : ty -> value -> Prop :=
| d_int w : is_default (TInt w) (VInt w 0) | d_uint w : is_default (TUInt w) (VUInt w 0)
| d_int256 : is_default TInt256 (VInt256 (repeat 0 32)) | d_uint256 : is_default TUInt256 (VUInt256 (repeat 0 32))
| d_f32 : is_default TFloat32 (VFloat32 0) | d_f64 : is_default TFloat64 (VFloat64 0) | d_bf : is_default TBFloat16 (VBFloat16 0)
| d_d32 s : is_default (TDecimal32 s) (VDecimal32 s 0) | d_d64 s : is_default (TDecimal64 s) (VDecimal64 s 0)
| d_d128 s : is_default (TDecimal128 s) (VDecimal128 s 0) | d_d256 s : is_default (TDecimal256 s) (VDecimal256 s (repeat 0 32))
| d_str : is_default TString (VString []) | d_fix n : is_default (TFixedString n) (VString [])
| d_uuid : is_default TUuid (VUuid 0) | d_date : is_default TDate (VDate 0)
| d_dt z : is_default (TDateTime z) (VDateTime z 0) | d_dt64 p z : is_default (TDateTime64 p z) (VDateTime64 z 0 p)
| d_ip4 : is_default TIpv4 (VIpv4 0) | d_ip6 : is_default TIpv6 (VIpv6 (repeat 0 16))
| d_point : is_default TPoint (VPoint (0, 0)) | d_ring : is_default TRing (VRing []) | d_poly : is_default TPolygon (VPolygon [])
| d_mpoly : is_default TMultiPolygon (VMultiPolygon [])
| d_e8 l : is_default (TEnum8 l) (VEnum8 0) | d_e16 l : is_default (TEnum16 l) (VEnum16 0)
| d_lc t v : is_default t v -> is_default (TLowCard t) v
| d_array t : is_default (TArray t) (VArray []) | d_map k v : is_default (TMap k v) (VMap [] [])
| d_null t : is_default (TNullable t) VNull
| d_tuple ts vs : Forall2 is_default ts vs -> is_default (TTuple ts) (VTuple vs).
