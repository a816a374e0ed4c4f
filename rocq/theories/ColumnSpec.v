(** Specification vocabulary for columns, independent of how the code encodes them:
    which values are representable in memory, which fit a type, and what a value
    looks like after a trip through a column of a given type. *)
From Verif Require Import Base Io Types.

(** A value a Rust program can hold: every number within its machine type.
    (values/mod.rs 39-89 gives the payload type of each variant.) *)
Definition byteb (b : N) : bool := b <? 256.
Definition signedb (w : N) (x : Z) : bool :=
  ((- 2 ^ Z.of_N (w - 1) <=? x) && (x <? 2 ^ Z.of_N (w - 1)))%Z.
Definition bytes_of_len (n : N) (l : list N) : bool := (lenN l =? n) && forallb byteb l.
Definition pointb (p : point) : bool := (fst p <? 2 ^ 64) && (snd p <? 2 ^ 64).

Fixpoint representable (v : value) : bool :=
  match v with
  | VInt w x => signedb (ibits w) x
  | VUInt w x => x <? 2 ^ ibits w
  | VInt256 be | VUInt256 be | VDecimal256 _ be => bytes_of_len 32 be
  | VFloat32 b => b <? 2 ^ 32
  | VFloat64 b => b <? 2 ^ 64
  | VBFloat16 b => b <? 2 ^ 16
  | VDecimal32 _ x => signedb 32 x
  | VDecimal64 _ x => signedb 64 x
  | VDecimal128 _ x => signedb 128 x
  | VString bs => forallb byteb bs
  | VUuid n => n <? 2 ^ 128
  | VDate d => d <? 2 ^ 16
  | VDateTime _ t => t <? 2 ^ 32
  | VDateTime64 _ t _ => t <? 2 ^ 64
  | VEnum8 x => signedb 8 x
  | VEnum16 x => signedb 16 x
  | VArray l | VTuple l => forallb representable l
  | VNull => true
  | VMap ks vs => forallb representable ks && forallb representable vs
  | VIpv4 n => n <? 2 ^ 32
  | VIpv6 o => bytes_of_len 16 o
  | VPoint p => pointb p
  | VRing r => forallb pointb r
  | VPolygon p => forallb (forallb pointb) p
  | VMultiPolygon m => forallb (forallb (forallb pointb)) m
  end.

(** The shape conditions that the library's own validation does not check: tuples have
    as many elements as their type, maps as many keys as values, and NULL is not sent
    to a Nullable geo type. *)
Definition is_geo (t : ty) : bool :=
  match t with TPoint | TRing | TPolygon | TMultiPolygon => true | _ => false end.

Fixpoint shape_ok (t : ty) (v : value) {struct t} : bool :=
  match t, v with
  | TArray t', VArray vs => forallb (shape_ok t') vs
  | TTuple ts, VTuple vs => (lenN ts =? lenN vs) && zip_all shape_ok ts vs
  | TMap k w, VMap ks vs => (lenN ks =? lenN vs) && forallb (shape_ok k) ks && forallb (shape_ok w) vs
  | TNullable t', _ => if is_null v then negb (is_geo t') else shape_ok t' v
  | TLowCard t', _ => shape_ok t' v
  | _, _ => true
  end.

(** A value that may be put in a column of type [t]. *)
Definition sendable (t : ty) (v : value) : bool :=
  representable v && inner_validate t v && shape_ok t v.

(** The bytes meant by an array of u8/i8 given for a string column. *)
Definition spec_byte (v : value) : N :=
  match v with VUInt I8 x => x | VInt I8 x => Z.to_N (x mod 256) | _ => 0 end.
(** FixedString(n) keeps the first n bytes, up to the first NUL. *)
Fixpoint cut_nul (l : list N) : list N :=
  match l with [] => [] | b :: t => if b =? 0 then [] else b :: cut_nul t end.
Definition fixed_view (n : N) (bs : list N) : list N := cut_nul (firstn (N.to_nat n) bs).

Definition zip_with {A B C} (f : A -> B -> C) : list A -> list B -> list C :=
  fix go l m := match l, m with x :: l', y :: m' => f x y :: go l' m' | _, _ => [] end.

(** What comes back when [v] is sent through a column of type [t]. *)
Fixpoint normal (t : ty) (v : value) {struct t} : value :=
  match t, v with
  | TInt I8, VUInt I8 x => VInt I8 (if x <? 128 then Z.of_N x else Z.of_N x - 256)
  | TString, VArray items => VString (map spec_byte items)
  | TFixedString n, VString bs => VString (fixed_view n bs)
  | TFixedString n, VArray items => VString (fixed_view n (map spec_byte items))
  | TLowCard t', _ => normal t' v
  | TArray t', VArray vs => VArray (map (normal t') vs)
  | TTuple ts, VTuple vs => VTuple (zip_with normal ts vs)
  | TMap k w, VMap ks vs => VMap (map (normal k) ks) (map (normal w) vs)
  | TNullable t', _ => if is_null v then VNull else normal t' v
  | _, _ => v
  end.

(** Size limits: every column reached by flattening has at most 2^30 entries and every
    string at most 2^30 bytes (LowCardinality columns: fewer than 2^30 rows). *)
Definition str_len (v : value) : N :=
  match v with VString bs => lenN bs | VArray l => lenN l | _ => 0 end.
Definition elems (v : value) : list value := match v with VArray l => l | _ => [] end.
Definition tuple_elems (v : value) : list value := match v with VTuple l => l | _ => [] end.
Definition map_keys (v : value) : list value := match v with VMap k _ => k | _ => [] end.
Definition map_vals (v : value) : list value := match v with VMap _ w => w | _ => [] end.
Definition ring_of (v : value) : ring := match v with VRing r => r | _ => [] end.
Definition polygon_of (v : value) : polygon := match v with VPolygon r => r | _ => [] end.
Definition multipolygon_of (v : value) : multipolygon := match v with VMultiPolygon r => r | _ => [] end.

Definition within (n : N) : Prop := n <= 2 ^ 30.
(** One entry of a string column: a String has at most 2^30 bytes, the length of a FixedString is
    one that a Rust vector can have. *)
Definition string_room (t : ty) (v : value) : Prop :=
  match t with TString => within (str_len v) | TFixedString n => n < 2 ^ 63 | _ => True end.
Definition ring_fits (rs : list ring) : Prop := within (lenN (concat rs)).
Definition polygon_fits (ps : list polygon) : Prop := within (lenN (concat ps)) /\ ring_fits (concat ps).
Definition multi_fits (ms : list multipolygon) : Prop := within (lenN (concat ms)) /\ polygon_fits (concat ms).

Fixpoint fits (t : ty) (vs : list value) {struct t} : Prop :=
  within (lenN vs) /\
  match t with
  | TString | TFixedString _ => Forall (string_room t) vs
  | TArray t' => fits t' (flat_map elems vs)
  | TTuple ts =>
      (fix go (ts : list ty) (rows : list (list value)) : Prop :=
         match ts with
         | [] => True
         | t1 :: ts' =>
             fits t1 (flat_map (fun r => match r with [] => [] | x :: _ => [x] end) rows)
             /\ go ts' (map (@tl value) rows)
         end) ts (map tuple_elems vs)
  | TMap k w => fits k (flat_map map_keys vs) /\ fits w (flat_map map_vals vs)
  | TNullable t' => fits t' vs
  | TLowCard t' => lenN vs < 2 ^ 30 /\ Forall (fun v => within (str_len v) /\ string_room (strip_null t') v) vs
  | TRing => ring_fits (map ring_of vs)
  | TPolygon => polygon_fits (map polygon_of vs)
  | TMultiPolygon => multi_fits (map multipolygon_of vs)
  | _ => True
  end.

(** Every FixedString in the type has a length that a Rust vector can have. *)
Fixpoint lengths_ok (t : ty) : bool :=
  match t with
  | TFixedString n => n <? 2 ^ 63
  | TArray t' | TNullable t' | TLowCard t' => lengths_ok t'
  | TTuple ts => forallb lengths_ok ts
  | TMap k v => lengths_ok k && lengths_ok v
  | _ => true
  end.

(** Bytes per value of a fixed-width type. *)
Definition iw_width (w : iw) : N := match w with I8 => 1 | I16 => 2 | I32 => 4 | I64 => 8 | I128 => 16 end.
Definition width (t : ty) : option N :=
  match t with
  | TInt w | TUInt w => Some (iw_width w)
  | TInt256 | TUInt256 | TDecimal256 _ => Some 32
  | TFloat32 | TDecimal32 _ | TDateTime _ | TIpv4 => Some 4
  | TFloat64 | TDecimal64 _ | TDateTime64 _ _ => Some 8
  | TBFloat16 | TDate | TEnum16 _ => Some 2
  | TDecimal128 _ | TUuid | TIpv6 => Some 16
  | TEnum8 _ => Some 1
  | _ => None
  end.

(** The value is of the Rust variant that the scalar type names, with the same parameters. *)
Definition same_scalar (t : ty) (v : value) : bool :=
  match t, v with
  | TInt I8, VInt I8 _ | TInt I16, VInt I16 _ | TInt I32, VInt I32 _ | TInt I64, VInt I64 _ | TInt I128, VInt I128 _ => true
  | TUInt I8, VUInt I8 _ | TUInt I16, VUInt I16 _ | TUInt I32, VUInt I32 _ | TUInt I64, VUInt I64 _ | TUInt I128, VUInt I128 _ => true
  | TInt256, VInt256 _ | TUInt256, VUInt256 _ => true
  | TFloat32, VFloat32 _ | TFloat64, VFloat64 _ | TBFloat16, VBFloat16 _ => true
  | TDecimal32 p, VDecimal32 p' _ | TDecimal64 p, VDecimal64 p' _
  | TDecimal128 p, VDecimal128 p' _ | TDecimal256 p, VDecimal256 p' _ => p =? p'
  | TUuid, VUuid _ | TDate, VDate _ | TIpv4, VIpv4 _ | TIpv6, VIpv6 _ => true
  | TDateTime z, VDateTime z' _ => z =? z'
  | TDateTime64 p z, VDateTime64 z' _ p' => (z =? z') && (p =? p')
  | TEnum8 _, VEnum8 _ | TEnum16 _, VEnum16 _ => true
  | _, _ => false
  end.

(** The values of a list, each at its first occurrence only. *)
Fixpoint firsts (l : list value) : list value :=
  match l with [] => [] | v :: t => v :: filter (fun x => negb (value_eqb v x)) (firsts t) end.

(** Unsigned LEB128, the varint format of the ClickHouse native protocol. *)
Fixpoint leb128 (fuel : nat) (v : N) : list N :=
  match fuel with
  | O => []
  | S f => if v <? 128 then [v] else (v mod 128 + 128) :: leb128 f (v / 128)
  end.

(** Values already in the form in which they come back: of the variant their type names,
    strings given as strings, FixedStrings within their length and free of NUL. *)
Definition fixed_ok (n : N) (bs : list N) : bool := (lenN bs <=? n) && forallb (fun b => negb (b =? 0)) bs.
Fixpoint canonical (t : ty) (v : value) {struct t} : bool :=
  match t, v with
  | TInt I8, VUInt _ _ => false
  | TString, VArray _ | TFixedString _, VArray _ => false
  | TFixedString n, VString bs => fixed_ok n bs
  | TLowCard t', _ => canonical t' v
  | TArray t', VArray vs => forallb (canonical t') vs
  | TTuple ts, VTuple vs => zip_all canonical ts vs
  | TMap k w, VMap ks vs => forallb (canonical k) ks && forallb (canonical w) vs
  | TNullable t', _ => is_null v || canonical t' v
  | _, _ => true
  end.
