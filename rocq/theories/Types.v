(** Model of the [Type] and [Value] enums, their helpers, validation and equality.
    klickhouse/src/types/mod.rs and klickhouse/src/values/mod.rs. *)
From Verif Require Import Base.

(** Text: a Rust [String]/[&str] as its sequence of Unicode scalar values. *)
Definition text := list N.

(** [chrono_tz::Tz] is an opaque enumeration; only equality matters here.
    [UTC] is entry 0. *)
Definition tz := N.
Definition UTC : tz := 0.

(** Native integer widths (i8..i128 / u8..u128). *)
Inductive iw := I8 | I16 | I32 | I64 | I128.
Definition ibytes (w : iw) : nat :=
  match w with I8 => 1 | I16 => 2 | I32 => 4 | I64 => 8 | I128 => 16 end%nat.
Definition ibits (w : iw) : N := 8 * N.of_nat (ibytes w).

(** types/mod.rs 25-83 [enum Type].  [Int8 .. Int128] are [TInt I8 .. TInt I128], etc. *)
Inductive ty : Type :=
| TInt (w : iw) | TInt256
| TUInt (w : iw) | TUInt256
| TFloat32 | TFloat64 | TBFloat16
| TDecimal32 (s : N) | TDecimal64 (s : N) | TDecimal128 (s : N) | TDecimal256 (s : N)
| TString | TFixedString (n : N)
| TUuid
| TDate | TDateTime (z : tz) | TDateTime64 (p : N) (z : tz)
| TIpv4 | TIpv6
| TPoint | TRing | TPolygon | TMultiPolygon
| TEnum8 (items : list (text * Z)) | TEnum16 (items : list (text * Z))
| TLowCard (t : ty)
| TArray (t : ty)
| TTuple (ts : list ty)
| TNullable (t : ty)
| TMap (k v : ty).

(** values/geo.rs 10-46: coordinates as the bit patterns of the two [f64]s. *)
Definition point := (N * N)%type.
Definition ring := list point.
Definition polygon := list ring.
Definition multipolygon := list polygon.

(** values/mod.rs 39-89 [enum Value].  Floats are their bit patterns, i256/u256 their
    32 big-endian bytes (values/int256.rs 7,62), Ipv6 its 16 octets, Uuid/Ipv4 their integers. *)
Inductive value : Type :=
| VInt (w : iw) (x : Z) | VInt256 (be : list N)
| VUInt (w : iw) (x : N) | VUInt256 (be : list N)
| VFloat32 (bits : N) | VFloat64 (bits : N) | VBFloat16 (bits : N)
| VDecimal32 (s : N) (x : Z) | VDecimal64 (s : N) (x : Z) | VDecimal128 (s : N) (x : Z)
| VDecimal256 (s : N) (be : list N)
| VString (bs : list N)
| VUuid (n : N)
| VDate (d : N) | VDateTime (z : tz) (t : N) | VDateTime64 (z : tz) (t : N) (p : N)
| VEnum8 (x : Z) | VEnum16 (x : Z)
| VArray (l : list value)
| VTuple (l : list value)
| VNull
| VMap (ks vs : list value)
| VIpv4 (n : N) | VIpv6 (octets : list N)
| VPoint (p : point) | VRing (r : ring) | VPolygon (p : polygon) | VMultiPolygon (m : multipolygon).

(* ---------------- induction principles for the nested inductives ---------------- *)
Section TyInd.
  Variable P : ty -> Prop.
  Hypothesis HInt : forall w, P (TInt w).
  Hypothesis HInt256 : P TInt256.
  Hypothesis HUInt : forall w, P (TUInt w).
  Hypothesis HUInt256 : P TUInt256.
  Hypothesis HF32 : P TFloat32.
  Hypothesis HF64 : P TFloat64.
  Hypothesis HBF : P TBFloat16.
  Hypothesis HD32 : forall s, P (TDecimal32 s).
  Hypothesis HD64 : forall s, P (TDecimal64 s).
  Hypothesis HD128 : forall s, P (TDecimal128 s).
  Hypothesis HD256 : forall s, P (TDecimal256 s).
  Hypothesis HStr : P TString.
  Hypothesis HFix : forall n, P (TFixedString n).
  Hypothesis HUuid : P TUuid.
  Hypothesis HDate : P TDate.
  Hypothesis HDT : forall z, P (TDateTime z).
  Hypothesis HDT64 : forall p z, P (TDateTime64 p z).
  Hypothesis HIp4 : P TIpv4.
  Hypothesis HIp6 : P TIpv6.
  Hypothesis HPoint : P TPoint.
  Hypothesis HRing : P TRing.
  Hypothesis HPoly : P TPolygon.
  Hypothesis HMulti : P TMultiPolygon.
  Hypothesis HE8 : forall l, P (TEnum8 l).
  Hypothesis HE16 : forall l, P (TEnum16 l).
  Hypothesis HLC : forall t, P t -> P (TLowCard t).
  Hypothesis HArr : forall t, P t -> P (TArray t).
  Hypothesis HTup : forall ts, Forall P ts -> P (TTuple ts).
  Hypothesis HNul : forall t, P t -> P (TNullable t).
  Hypothesis HMap : forall k v, P k -> P v -> P (TMap k v).

  Fixpoint ty_nested_ind (t : ty) : P t :=
    match t with
    | TInt w => HInt w | TInt256 => HInt256 | TUInt w => HUInt w | TUInt256 => HUInt256
    | TFloat32 => HF32 | TFloat64 => HF64 | TBFloat16 => HBF
    | TDecimal32 s => HD32 s | TDecimal64 s => HD64 s | TDecimal128 s => HD128 s | TDecimal256 s => HD256 s
    | TString => HStr | TFixedString n => HFix n | TUuid => HUuid
    | TDate => HDate | TDateTime z => HDT z | TDateTime64 p z => HDT64 p z
    | TIpv4 => HIp4 | TIpv6 => HIp6
    | TPoint => HPoint | TRing => HRing | TPolygon => HPoly | TMultiPolygon => HMulti
    | TEnum8 l => HE8 l | TEnum16 l => HE16 l
    | TLowCard t => HLC t (ty_nested_ind t)
    | TArray t => HArr t (ty_nested_ind t)
    | TTuple ts => HTup ts ((fix go l : Forall P l :=
        match l with [] => Forall_nil _ | x :: r => Forall_cons _ (ty_nested_ind x) (go r) end) ts)
    | TNullable t => HNul t (ty_nested_ind t)
    | TMap k v => HMap k v (ty_nested_ind k) (ty_nested_ind v)
    end.
End TyInd.

(** A shorter principle: everything without component types is one case. *)
Definition ty_leaf (t : ty) : bool :=
  match t with TLowCard _ | TArray _ | TTuple _ | TNullable _ | TMap _ _ => false | _ => true end.

Lemma ty_ind_leaf (P : ty -> Prop) :
  (forall t, ty_leaf t = true -> P t) ->
  (forall t, P t -> P (TLowCard t)) -> (forall t, P t -> P (TArray t)) ->
  (forall ts, Forall P ts -> P (TTuple ts)) -> (forall t, P t -> P (TNullable t)) ->
  (forall k v, P k -> P v -> P (TMap k v)) -> forall t, P t.
Proof. intros HL. apply ty_nested_ind; intros; try (apply HL; reflexivity); auto. Qed.

Section ValueInd.
  Variable P : value -> Prop.
  Hypothesis HLeaf : forall v,
    match v with VArray _ | VTuple _ | VMap _ _ => False | _ => True end -> P v.
  Hypothesis HArr : forall l, Forall P l -> P (VArray l).
  Hypothesis HTup : forall l, Forall P l -> P (VTuple l).
  Hypothesis HMap : forall ks vs, Forall P ks -> Forall P vs -> P (VMap ks vs).
  Fixpoint value_nested_ind (v : value) : P v :=
    let go := fix go l : Forall P l :=
        match l with [] => Forall_nil _ | x :: r => Forall_cons _ (value_nested_ind x) (go r) end in
    match v with
    | VArray l => HArr l (go l)
    | VTuple l => HTup l (go l)
    | VMap ks vs => HMap ks vs (go ks) (go vs)
    | v => HLeaf v I
    end.
End ValueInd.

(* ---------------- helpers on types ---------------- *)

(** types/mod.rs 135-140 *)
Definition strip_null (t : ty) : ty := match t with TNullable x => x | _ => t end.
(** types/mod.rs 142-144 *)
Definition is_nullable (t : ty) : bool := match t with TNullable _ => true | _ => false end.
(** types/mod.rs 190-195 *)
Definition strip_low_cardinality (t : ty) : ty := match t with TLowCard x => x | _ => t end.

Definition zeros (n : nat) : list N := repeat 0 n.

(** types/mod.rs 146-188 [default_value]; with the default feature [bfloat16] enabled. *)
Fixpoint default_value (t : ty) : value :=
  match t with
  | TInt w => VInt w 0 | TInt256 => VInt256 (zeros 32)
  | TUInt w => VUInt w 0 | TUInt256 => VUInt256 (zeros 32)
  | TFloat32 => VFloat32 0 | TFloat64 => VFloat64 0 | TBFloat16 => VBFloat16 0
  | TDecimal32 s => VDecimal32 s 0 | TDecimal64 s => VDecimal64 s 0
  | TDecimal128 s => VDecimal128 s 0 | TDecimal256 s => VDecimal256 s (zeros 32)
  | TString => VString [] | TFixedString _ => VString []
  | TUuid => VUuid 0
  | TDate => VDate 0 | TDateTime z => VDateTime z 0 | TDateTime64 p z => VDateTime64 z 0 p
  | TIpv4 => VIpv4 0 | TIpv6 => VIpv6 (zeros 16)
  | TPoint => VPoint (0, 0) | TRing => VRing [] | TPolygon => VPolygon [] | TMultiPolygon => VMultiPolygon []
  | TEnum8 _ => VEnum8 0 | TEnum16 _ => VEnum16 0
  | TLowCard x => default_value x
  | TArray _ => VArray []
  | TTuple ts => VTuple (map default_value ts)
  | TNullable _ => VNull
  | TMap _ _ => VMap [] []
  end.

(* ---------------- equality of values ---------------- *)

(** Equality of two [f64] given by their bit patterns, as [f64 == f64] computes it:
    NaN is unequal to everything, the two zeros are equal, otherwise bits decide. *)
Definition f64_exp (b : N) : N := N.land (N.shiftr b 52) 2047.
Definition f64_mant (b : N) : N := N.land b (N.ones 52).
Definition f64_nan (b : N) : bool := (f64_exp b =? 2047) && negb (f64_mant b =? 0).
Definition f64_zero (b : N) : bool := (b =? 0) || (b =? 2 ^ 63).
Definition f64_eqb (a b : N) : bool :=
  if f64_nan a || f64_nan b then false
  else (f64_zero a && f64_zero b) || (a =? b).

Definition list_eqb {A} (e : A -> A -> bool) : list A -> list A -> bool :=
  fix go l m :=
  match l, m with
  | [], [] => true
  | x :: l', y :: m' => e x y && go l' m'
  | _, _ => false
  end.

(** values/geo.rs 5: [#[derive(PartialEq)] struct Point(pub [f64; 2])] *)
Definition point_eqb (p q : point) : bool := f64_eqb (fst p) (fst q) && f64_eqb (snd p) (snd q).
Definition ring_eqb := list_eqb point_eqb.
Definition polygon_eqb := list_eqb ring_eqb.
Definition multipolygon_eqb := list_eqb polygon_eqb.

Definition iw_eqb (a b : iw) : bool :=
  match a, b with I8,I8 | I16,I16 | I32,I32 | I64,I64 | I128,I128 => true | _,_ => false end.
Definition bytes_eqb := list_eqb N.eqb.

(** values/mod.rs 91-132 [impl PartialEq for Value] *)
Fixpoint value_eqb (a b : value) : bool :=
  match a, b with
  | VInt w x, VInt w' y => iw_eqb w w' && (x =? y)%Z
  | VInt256 x, VInt256 y => bytes_eqb x y
  | VUInt w x, VUInt w' y => iw_eqb w w' && (x =? y)
  | VUInt256 x, VUInt256 y => bytes_eqb x y
  | VFloat32 x, VFloat32 y => x =? y
  | VFloat64 x, VFloat64 y => x =? y
  | VBFloat16 x, VBFloat16 y => x =? y
  | VDecimal32 s x, VDecimal32 s' y => (s =? s') && (x =? y)%Z
  | VDecimal64 s x, VDecimal64 s' y => (s =? s') && (x =? y)%Z
  | VDecimal128 s x, VDecimal128 s' y => (s =? s') && (x =? y)%Z
  | VDecimal256 s x, VDecimal256 s' y => (s =? s') && bytes_eqb x y
  | VString x, VString y => bytes_eqb x y
  | VUuid x, VUuid y => x =? y
  | VDate x, VDate y => x =? y
  | VDateTime z x, VDateTime z' y => (z =? z') && (x =? y)
  | VDateTime64 z x p, VDateTime64 z' y p' => (z =? z') && (x =? y) && (p =? p')
  | VEnum8 x, VEnum8 y => (x =? y)%Z
  | VEnum16 x, VEnum16 y => (x =? y)%Z
  | VArray l, VArray m => list_eqb value_eqb l m
  | VTuple l, VTuple m => list_eqb value_eqb l m
  | VMap k v, VMap k' v' => list_eqb value_eqb k k' && list_eqb value_eqb v v'
  | VIpv4 x, VIpv4 y => x =? y
  | VIpv6 x, VIpv6 y => bytes_eqb x y
  | VPoint p, VPoint q => point_eqb p q
  | VRing p, VRing q => ring_eqb p q
  | VPolygon p, VPolygon q => polygon_eqb p q
  | VMultiPolygon p, VMultiPolygon q => multipolygon_eqb p q
  | VNull, VNull => true
  | _, _ => false
  end.

(** [value == &Value::Null] *)
Definition is_null (v : value) : bool := match v with VNull => true | _ => false end.
Lemma is_null_eqb v : value_eqb v VNull = is_null v.
Proof. destruct v; reflexivity. Qed.

(** values/mod.rs 242-248 [justify_null_ref] *)
Definition justify_null (t : ty) (v : value) : value :=
  if is_null v then default_value t else v.

(* ---------------- validation ---------------- *)

(** types/mod.rs 907-925: the types allowed inside LowCardinality (after [strip_null]). *)
Definition lc_allowed (t : ty) : bool :=
  match t with
  | TString | TFixedString _ | TDate | TDateTime _ | TIpv4 | TIpv6
  | TInt _ | TInt256 | TUInt _ | TUInt256 => true
  | _ => false
  end.

(** types/mod.rs 943-947: the types forbidden inside Nullable. *)
Definition nullable_forbidden (t : ty) : bool :=
  match t with TArray _ | TMap _ _ | TLowCard _ | TTuple _ | TNullable _ => true | _ => false end.

(** types/mod.rs 957-979: the types allowed as map keys. *)
Definition map_key_allowed (t : ty) : bool :=
  match t with
  | TString | TFixedString _ | TInt _ | TInt256 | TUInt _ | TUInt256
  | TLowCard _ | TUuid | TDate | TDateTime _ | TDateTime64 _ _ | TEnum8 _ | TEnum16 _ => true
  | _ => false
  end.

(** types/mod.rs 873-989 [validate]: [true] is [Ok(())], [false] is [Err(TypeParseError)]. *)
Fixpoint validate (t : ty) : bool :=
  match t with
  | TDecimal32 p => (1 <=? p) && (p <=? 9)
  | TDecimal64 p | TDateTime64 p _ => (1 <=? p) && (p <=? 18)
  | TDecimal128 p => (1 <=? p) && (p <=? 38)
  | TDecimal256 p => (1 <=? p) && (p <=? 76)
  | TLowCard inner => lc_allowed (strip_null inner) && validate inner
  | TArray inner => validate inner
  | TTuple ts => forallb validate ts
  | TNullable inner => negb (nullable_forbidden inner) && validate inner
  | TMap k v => map_key_allowed k && validate k && validate v
  | _ => true
  end.

(** types/mod.rs 1033: [matches!(item, Value::UInt8(_) | Value::Int8(_))] *)
Definition is_byte_value (v : value) : bool :=
  match v with VUInt I8 _ | VInt I8 _ => true | _ => false end.

(** types/mod.rs 1051-1054: [inner_types.iter().zip(values.iter()).all(..)] *)
Definition zip_all {A B} (f : A -> B -> bool) : list A -> list B -> bool :=
  fix go l m :=
  match l, m with
  | x :: l', y :: m' => f x y && go l' m'
  | _, _ => true
  end.

(** types/mod.rs 1001-1064 [inner_validate_value] (feature [bfloat16] on). *)
Fixpoint inner_validate (t : ty) (v : value) {struct t} : bool :=
  match t, v with
  | TInt w, VInt w' _ => iw_eqb w w'
  | TInt I8, VUInt I8 _ => true
  | TInt256, VInt256 _ => true
  | TUInt w, VUInt w' _ => iw_eqb w w'
  | TUInt256, VUInt256 _ => true
  | TFloat32, VFloat32 _ | TFloat64, VFloat64 _ | TBFloat16, VBFloat16 _ => true
  | TDecimal32 p, VDecimal32 p' _ => p =? p'
  | TDecimal64 p, VDecimal64 p' _ => p =? p'
  | TDecimal128 p, VDecimal128 p' _ => p =? p'
  | TDecimal256 p, VDecimal256 p' _ => p =? p'
  | TFixedString _, VArray items | TString, VArray items => forallb is_byte_value items
  | TString, VString _ | TFixedString _, VString _ | TUuid, VUuid _ | TDate, VDate _ => true
  | TDateTime z, VDateTime z' _ => z =? z'
  | TDateTime64 p z, VDateTime64 z' _ p' => (z =? z') && (p =? p')
  | TIpv4, VIpv4 _ | TIpv6, VIpv6 _ => true
  | TPoint, VPoint _ | TRing, VRing _ | TPolygon, VPolygon _ | TMultiPolygon, VMultiPolygon _ => true
  | TEnum8 entries, VEnum8 x => existsb (fun e => (snd e =? x)%Z) entries
  | TEnum16 entries, VEnum16 x => existsb (fun e => (snd e =? x)%Z) entries
  | TLowCard x, _ => inner_validate x v
  | TArray t', VArray vs => forallb (inner_validate t') vs
  | TTuple ts, VTuple vs => zip_all inner_validate ts vs
  | TNullable t', _ => is_null v || inner_validate t' v
  | TMap k w, VMap ks vs => forallb (inner_validate k) ks && forallb (inner_validate w) vs
  | _, _ => false
  end.

(** Does formatting a value with [{:?}]/[{}] panic?  values/mod.rs 339-462:
    Decimal256 is [unimplemented!] (387-389); a Map with keys and values of different
    lengths fails its [assert_eq!] (443); a DateTime64 goes through [FromSql for
    chrono::DateTime<Tz>] (411-413, date.rs 397-408) where [10u64.pow(p)] overflows for
    p >= 20 and [9 - p] underflows for p > 9; for p <= 9 the seconds are given to
    [timestamp_opt(..).unwrap()], which panics beyond chrono's last representable instant
    (year 262142), and seconds beyond [i64] become a [fmt::Error], on which [format!]
    panics too. *)
Definition CHRONO_MAX_SECS : N := 8210266876799.
Fixpoint fmt_panics (v : value) : bool :=
  match v with
  | VDecimal256 _ _ => true
  | VDateTime64 _ t p => (9 <? p) || (CHRONO_MAX_SECS <? t / 10 ^ p)
  | VArray l | VTuple l => existsb fmt_panics l
  | VMap ks vs => negb (lenN ks =? lenN vs) || existsb fmt_panics ks || existsb fmt_panics vs
  | _ => false
  end.

(** types/mod.rs 991-999 [validate_value]. *)
Definition validate_value (t : ty) (v : value) : res unit :=
  if negb (validate t) then Err ETypeParse
  else if negb (inner_validate t v) then (if fmt_panics v then Panic else Err ETypeParse)
  else Ok tt.
