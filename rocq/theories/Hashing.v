(** Model of [Hash for Value] (values/mod.rs 134-207) and of the derived [Hash] impls below it. *)
From Verif Require Import Base Types.

(** One call on the hasher: the discriminant of an enum, a length prefix, an integer of some
    width, or raw bytes. *)
Inductive hword := HDisc (d : N) | HLen (n : N) | HInt (bits : N) (z : Z) | HRaw (bs : list N).

(** [core::mem::discriminant]: the position of the variant in the enum (values/mod.rs 39-89). *)
Definition width_index (w : iw) : N := match w with I8 => 0 | I16 => 1 | I32 => 2 | I64 => 3 | I128 => 4 end.
Definition discriminant (v : value) : N :=
  match v with
  | VInt w _ => width_index w | VInt256 _ => 5
  | VUInt w _ => 6 + width_index w | VUInt256 _ => 11
  | VFloat32 _ => 12 | VFloat64 _ => 13 | VBFloat16 _ => 14
  | VDecimal32 _ _ => 15 | VDecimal64 _ _ => 16 | VDecimal128 _ _ => 17 | VDecimal256 _ _ => 18
  | VString _ => 19 | VUuid _ => 20 | VDate _ => 21 | VDateTime _ _ => 22 | VDateTime64 _ _ _ => 23
  | VEnum8 _ => 24 | VEnum16 _ => 25 | VArray _ => 26 | VTuple _ => 27 | VNull => 28 | VMap _ _ => 29
  | VIpv4 _ => 30 | VIpv6 _ => 31 | VPoint _ => 32 | VRing _ => 33 | VPolygon _ => 34 | VMultiPolygon _ => 35
  end.

(** [Hash for [u8]] and [Vec<u8>]: length, then the bytes. *)
Definition hash_bytes (bs : list N) : list hword := [HLen (lenN bs); HRaw bs].
(** [Hash for Vec<T>]: length, then each element. *)
Definition hash_list {A} (f : A -> list hword) (l : list A) : list hword := HLen (lenN l) :: flat_map f l.
(** values/geo.rs 11-17: the bits of the two coordinates; 29, 36, 43: derived on vectors. *)
Definition hash_point (p : point) : list hword := [HInt 64 (Z.of_N (fst p)); HInt 64 (Z.of_N (snd p))].
Definition hash_ring (r : ring) : list hword := hash_list hash_point r.
Definition hash_polygon (p : polygon) : list hword := hash_list hash_ring p.
Definition hash_multipolygon (m : multipolygon) : list hword := hash_list hash_polygon m.

(** values/mod.rs 134-207. Floats are hashed by their bits; time zones by their enum. *)
Fixpoint hash_value (v : value) : list hword :=
  HDisc (discriminant v) ::
  match v with
  | VInt w x => [HInt (ibits w) x] | VUInt w x => [HInt (ibits w) (Z.of_N x)]
  | VInt256 be | VUInt256 be => hash_bytes be
  | VFloat32 b => [HInt 32 (Z.of_N b)] | VFloat64 b => [HInt 64 (Z.of_N b)] | VBFloat16 b => [HInt 16 (Z.of_N b)]
  | VDecimal32 s x => [HInt 64 (Z.of_N s); HInt 32 x] | VDecimal64 s x => [HInt 64 (Z.of_N s); HInt 64 x]
  | VDecimal128 s x => [HInt 64 (Z.of_N s); HInt 128 x] | VDecimal256 s be => HInt 64 (Z.of_N s) :: hash_bytes be
  | VString bs => hash_bytes bs
  | VUuid n => [HInt 128 (Z.of_N n)]
  | VDate d => [HInt 16 (Z.of_N d)]
  | VDateTime z t => [HDisc z; HInt 32 (Z.of_N t)]
  | VDateTime64 z t p => [HDisc z; HInt 64 (Z.of_N t); HInt 64 (Z.of_N p)]
  | VEnum8 x => [HInt 8 x] | VEnum16 x => [HInt 16 x]
  | VArray l | VTuple l => HLen (lenN l) :: flat_map hash_value l
  | VNull => []
  | VMap ks vs => (HLen (lenN ks) :: flat_map hash_value ks) ++ (HLen (lenN vs) :: flat_map hash_value vs)
  | VIpv4 n => [HInt 32 (Z.of_N n)] | VIpv6 o => hash_bytes o
  | VPoint p => hash_point p | VRing r => hash_ring r | VPolygon p => hash_polygon p | VMultiPolygon m => hash_multipolygon m
  end.
