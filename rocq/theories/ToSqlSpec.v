(** What SQL value a Rust value is sent as, when the column it is for has the type given by the
    hint [h] ([None]: not known): one rule for each kind of Rust type.  Rust decimals and chrono
    date-times have properties of their own (C58, C36). *)
From Verif Require Import Base Io Types Utf8 Convert Numeric ReadSpec.

(** The hint for the elements of an array, the components of a tuple, the keys and values of a
    map, the value inside an option. *)
Definition element_hint (h : option ty) : option ty := match h with Some (TArray t) => Some (strip_low_cardinality t) | _ => None end.
Definition component_hint (h : option ty) (i : nat) : option ty := match h with Some (TTuple ts) => nth_error ts i | _ => None end.
Definition key_hint (h : option ty) : option ty := match h with Some (TMap k _) => Some k | _ => None end.
Definition value_hint (h : option ty) : option ty := match h with Some (TMap _ v) => Some v | _ => None end.
Definition some_hint (h : option ty) : option ty := match h with Some (TNullable t) => Some t | _ => None end.

(** The eight bits of an element of a [Vec<u8>] or [Vec<i8>]. *)
Inductive bits_of : rval -> N -> Prop :=
| bo_unsigned n : bits_of (XLeaf (VUInt I8 n)) n
| bo_signed z : bits_of (XLeaf (VInt I8 z)) (Z.to_N (z mod 256)).
Definition as_signed (b : N) : Z := if b <? 128 then Z.of_N b else (Z.of_N b - 256)%Z.
Definition byte_rty (r : rty) : Prop := r = RLeaf (LUInt I8) \/ r = RLeaf (LInt I8).
(** Arrays of strings: the one place where a [Vec] of bytes is not sent as an array. *)
Definition strings_hint (h : option ty) : Prop := exists t, element_hint h = Some t /\ string_type t.

Inductive sent : rty -> option ty -> rval -> value -> Prop :=
| sn_leaf l h v : sent (RLeaf l) h (XLeaf v) v
| sn_true h : sent RBool h (XBool true) (VUInt I8 1)
| sn_false h : sent RBool h (XBool false) (VUInt I8 0)
| sn_string h s : sent RString h (XStr s) (VString (utf8 s))
| sn_bytes h bs : h <> Some (TArray (TUInt I8)) -> h <> Some (TArray (TInt I8)) -> sent RBytes h (XBytes bs) (VString bs)
| sn_bytes_u bs : sent RBytes (Some (TArray (TUInt I8))) (XBytes bs) (VArray (map (VUInt I8) bs))
| sn_bytes_i bs : sent RBytes (Some (TArray (TInt I8))) (XBytes bs) (VArray (map (fun b => VInt I8 (as_signed b)) bs))
| sn_value h v : sent RValue h (XValue v) v
| sn_decimal h d v : dec_to_sql d h = Ok v -> sent RDecimal h (XDec d) v
| sn_chrono h i v : chrono_to_sql i = Ok v -> sent RChrono h (XInstant i) v
| sn_vec r h l vs : ~ (byte_rty r /\ strings_hint h) -> Forall2 (sent r (element_hint h)) l vs -> sent (RVec r) h (XList l) (VArray vs)
| sn_vec_bytes r h l bs : byte_rty r -> strings_hint h -> Forall2 bits_of l bs -> sent (RVec r) h (XList l) (VString bs)
| sn_arr n r h l vs : Forall2 (sent r (element_hint h)) l vs -> sent (RArr n r) h (XList l) (VArray vs)
| sn_vec_tuple r h l vs : sent_from 0 (repeat r (length l)) h l vs -> sent (RVecTuple r) h (XList l) (VTuple vs)
| sn_none r h : sent (ROpt r) h (XOpt None) VNull
| sn_some r h x v : sent r (some_hint h) x v -> sent (ROpt r) h (XOpt (Some x)) v
| sn_box r h x v : sent r h x v -> sent (RBox r) h x v
| sn_tuple rs h l vs : sent_from 0 rs h l vs -> sent (RTuple rs) h (XTuple l) (VTuple vs)
| sn_map rk rv h l ks vs : Forall2 (sent rk (key_hint h)) (map fst l) ks -> Forall2 (sent rv (value_hint h)) (map snd l) vs ->
    sent (RMap rk rv) h (XMap l) (VMap ks vs)
| sn_user a to from h x v : to x h = Ok v -> sent (RUser a to from) h x v    (* the user's own conversion *)
(** components from the i-th on *)
with sent_from : nat -> list rty -> option ty -> list rval -> list value -> Prop :=
| sf_nil i h : sent_from i [] h [] []
| sf_cons i r rs h x l v vs : sent r (component_hint h i) x v -> sent_from (S i) rs h l vs -> sent_from i (r :: rs) h (x :: l) (v :: vs).

(** The elements of a list read as [Vec<u8>] or [Vec<i8>] are of that type. *)
Fixpoint bytes_are_bytes (r : rty) (x : rval) {struct r} : Prop :=
  match r, x with
  | RVec r', XList l => (byte_rty r' -> Forall (fun y => exists b, bits_of y b) l) /\ Forall (bytes_are_bytes r') l
  | RArr _ r', XList l | RVecTuple r', XList l => Forall (bytes_are_bytes r') l
  | ROpt r', XOpt (Some y) => bytes_are_bytes r' y
  | RBox r', _ => bytes_are_bytes r' x
  | RTuple rs, XTuple l => (fix go rs l := match rs, l with r1 :: rs', y :: l' => bytes_are_bytes r1 y /\ go rs' l' | _, _ => True end) rs l
  | RMap rk rv, XMap l => Forall (fun kv => bytes_are_bytes rk (fst kv) /\ bytes_are_bytes rv (snd kv)) l
  | _, _ => True
  end.
