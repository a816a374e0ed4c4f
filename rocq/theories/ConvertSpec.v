(** What the conversions are expected to do, independently of how they do it. *)
From Verif Require Import Base Io Types Utf8 ColumnSpec Convert Numeric.

(** A value as it comes out of a column of type [t]: the variant the type names, strings as
    strings, components likewise.  (A tuple that has lost components is only required to be a
    tuple: see C07.) *)
Fixpoint typed (t : ty) (v : value) {struct t} : bool :=
  match t, v with
  | TLowCard t', _ => typed t' v
  | TNullable t', _ => is_null v || typed t' v
  | TArray t', VArray vs => forallb (typed t') vs
  | TTuple ts, VTuple vs => if lenN ts =? lenN vs then zip_all typed ts vs else true
  | TMap k w, VMap ks vs => (lenN ks =? lenN vs) && forallb (typed k) ks && forallb (typed w) vs
  | TString, VString _ | TFixedString _, VString _ => true
  | TPoint, VPoint _ | TRing, VRing _ | TPolygon, VPolygon _ | TMultiPolygon, VMultiPolygon _ => true
  | _, _ => same_scalar t v
  end.

(** Rust types one of whose values is NULL. *)
Fixpoint has_null (r : rty) : bool :=
  match r with ROpt _ | RValue => true | RBox r' => has_null r' | _ => false end.

(** The pairing of Rust types and column types (after removing LowCardinality, which is an
    encoding, wherever it may stand). *)
Definition forall2b {A B} (f : A -> B -> bool) : list A -> list B -> bool :=
  fix go l m := match l, m with [], [] => true | x :: l', y :: m' => f x y && go l' m' | _, _ => false end.
Fixpoint stores (r : rty) (t : ty) {struct r} : bool :=
  match r, t with
  | RLeaf l, _ => leaf_type l t
  | RBool, TUInt I8 => true
  | RString, TString | RString, TFixedString _ => true
  | RBytes, TString | RBytes, TFixedString _ | RBytes, TArray (TUInt I8) | RBytes, TArray (TInt I8) => true
  | RValue, _ => true
  | RDecimal, TDecimal32 _ | RDecimal, TDecimal64 _ | RDecimal, TDecimal128 _ => true
  | RChrono, TDateTime64 p _ => p =? 6
  | RVec r', TArray t' | RArr _ r', TArray t' => stores r' (strip_low_cardinality t')
  | RVecTuple r', TTuple ts => forallb (stores r') ts
  | ROpt r', TNullable t' => negb (has_null r') && stores r' (strip_low_cardinality t')
  | RBox r', t' => stores r' t'
  | RTuple rs, TTuple ts => forall2b (fun r' t' => stores r' (strip_low_cardinality t')) rs ts
  | RMap k v, TMap tk tv => stores k (strip_low_cardinality tk) && stores v (strip_low_cardinality tv)
  | RUser _ _ _, _ => true                        (* left to [member] *)
  | _, _ => false
  end.

(** Date-times carry their zone, which must be the column's. *)
Definition zone_ok (t : ty) (v : value) : Prop :=
  match t, v with
  | TDateTime z, VDateTime z' _ => z = z'
  | TDateTime64 _ z, VDateTime64 z' _ _ => z = z'
  | _, _ => True
  end.
Definition decimal_type (t : ty) : option (N * N) :=
  match t with TDecimal32 p => Some (32, p) | TDecimal64 p => Some (64, p) | TDecimal128 p => Some (128, p) | _ => None end.

(** What the writer may have been told about a column of type [t]: that type, or, where
    LowCardinality is allowed, its LowCardinality or nothing. *)
Definition hint_for (h : option ty) (t : ty) : Prop :=
  h = Some t \/ (lc_allowed (strip_null t) = true /\ (h = Some (TLowCard t) \/ h = None)).

(** [x] is a value of the Rust type [r] that a column of type [t] can hold exactly: of a user's
    type, one that its own conversions bring back (and do not send as NULL). *)
Definition all2 {A B} (P : A -> B -> Prop) : list A -> list B -> Prop :=
  fix go l m := match l, m with [], [] => True | x :: l', y :: m' => P x y /\ go l' m' | _, _ => False end.
Definition all3 {A B C} (P : A -> B -> C -> Prop) : list A -> list B -> list C -> Prop :=
  fix go l m n := match l, m, n with [], [], [] => True | x :: l', y :: m', z :: n' => P x y z /\ go l' m' n' | _, _, _ => False end.
Fixpoint member (r : rty) (t : ty) (x : rval) {struct r} : Prop :=
  match r, x with
  | RLeaf l, XLeaf v => leaf_content l v = Some v /\ zone_ok t v
  | RBool, XBool _ => True
  | RString, XStr s => forallb scalar s = true
  | RBytes, XBytes bs => Forall (fun b => b < 256) bs
  | RValue, XValue v => inner_validate t v = true
  | RDecimal, XDec d => dec_ok d /\ exists w p, decimal_type t = Some (w, p) /\ d_scale d = p /\ in_signed w (d_mantissa d)
  | RChrono, XInstant i =>
      zone_ok t (VDateTime64 (i_zone i) 0 0) /\ (0 <= i_secs i <= Z.of_N CHRONO_MAX_SECS)%Z /\ i_nanos i < 10 ^ 9 /\ i_nanos i mod 1000 = 0
  | RVec r', XList l => match t with TArray t' => Forall (member r' (strip_low_cardinality t')) l | _ => False end
  | RArr n r', XList l => match t with TArray t' => lenN l = n /\ Forall (member r' (strip_low_cardinality t')) l | _ => False end
  | RVecTuple r', XList l => match t with TTuple ts => all2 (member r') ts l | _ => False end
  | ROpt r', XOpt o =>
      match o with None => True | Some x => match t with TNullable t' => member r' (strip_low_cardinality t') x | _ => False end end
  | RBox r', _ => member r' t x
  | RTuple rs, XTuple l =>
      match t with TTuple ts =>
        (fix go rs ts l := match rs, ts, l with [], [], [] => True
           | r1 :: rs', t1 :: ts', x :: l' => member r1 (strip_low_cardinality t1) x /\ go rs' ts' l' | _, _, _ => False end) rs ts l
      | _ => False end
  | RMap k v, XMap l =>
      match t with TMap tk tv =>
        NoDup (map fst l) /\ Forall (fun kv => member k (strip_low_cardinality tk) (fst kv) /\ member v (strip_low_cardinality tv) (snd kv)) l
      | _ => False end
  | RUser _ to from, _ => forall h, hint_for h t -> exists v, to x h = Ok v /\ inner_validate t v = true /\ is_null v = false /\ from t v = Ok x
  | _, _ => False
  end.

(** ... and that comes back exactly from a column: machine numbers within their machine type,
    strings for FixedString(n) at most n bytes without NUL, no NULL for a Nullable geo type. *)
Fixpoint survives (r : rty) (t : ty) (x : rval) {struct r} : Prop :=
  match r, x with
  | RLeaf _, XLeaf v => representable v = true
  | RString, XStr s => match t with TFixedString n => fixed_ok n (utf8 s) = true | _ => True end
  | RBytes, XBytes bs => match t with TFixedString n => fixed_ok n bs = true | _ => True end
  | RValue, XValue v => representable v = true /\ shape_ok t v = true /\ canonical t v = true
  | RVec r', XList l | RArr _ r', XList l => match t with TArray t' => Forall (survives r' (strip_low_cardinality t')) l | _ => True end
  | RVecTuple r', XList l => match t with TTuple ts => all2 (survives r') ts l | _ => True end
  | ROpt r', XOpt o =>
      match t with TNullable t' =>
        match o with None => is_geo t' = false | Some x => survives r' (strip_low_cardinality t') x end
      | _ => True end
  | RBox r', _ => survives r' t x
  | RTuple rs, XTuple l =>
      match t with TTuple ts =>
        (fix go rs ts l := match rs, ts, l with
           | r1 :: rs', t1 :: ts', x :: l' => survives r1 (strip_low_cardinality t1) x /\ go rs' ts' l' | _, _, _ => True end) rs ts l
      | _ => True end
  | RMap k v, XMap l =>
      match t with TMap tk tv =>
        Forall (fun kv => survives k (strip_low_cardinality tk) (fst kv) /\ survives v (strip_low_cardinality tv) (snd kv)) l
      | _ => True end
  | RUser _ to _, _ => forall h v, hint_for h t -> to x h = Ok v -> representable v = true /\ shape_ok t v = true /\ canonical t v = true
  | _, _ => True
  end.

(** No chrono date-time inside (their conversion can panic: C36), and a conversion of the user's does not panic on a value of
    the column's type. *)
Fixpoint calm (r : rty) : Prop :=
  match r with
  | RChrono => False
  | RUser _ _ from => forall t v, typed t v = true -> from t v <> Panic
  | RVec r' | RArr _ r' | RVecTuple r' | ROpt r' | RBox r' => calm r'
  | RTuple rs => (fix go rs := match rs with [] => True | r' :: rs' => calm r' /\ go rs' end) rs
  | RMap k v => calm k /\ calm v
  | _ => True
  end.

(** No conversion of the user's inside. *)
Fixpoint no_user (r : rty) : bool :=
  match r with
  | RUser _ _ _ => false
  | RVec r' | RArr _ r' | RVecTuple r' | ROpt r' | RBox r' => no_user r'
  | RTuple rs => forallb no_user rs
  | RMap k v => no_user k && no_user v
  | _ => true
  end.

(** A type whose values determine it: no NULLs, encodings, fixed lengths or enumerations. *)
Fixpoint plain_type (t : ty) : bool :=
  match t with
  | TLowCard _ | TNullable _ | TFixedString _ | TEnum8 _ | TEnum16 _ => false
  | TArray t' => plain_type t'
  | TTuple ts => forallb plain_type ts
  | TMap k v => plain_type k && plain_type v
  | _ => true
  end.
(** No empty array or map inside. *)
Fixpoint no_empty (v : value) : bool :=
  match v with
  | VArray l => negb (lenN l =? 0) && forallb no_empty l
  | VTuple l => forallb no_empty l
  | VMap ks vs => negb (lenN ks =? 0) && negb (lenN vs =? 0) && forallb no_empty ks && forallb no_empty vs
  | _ => true
  end.
(** The values that decide the inferred type: the value itself, the first element of an array or
    of a map's keys and values, every component of a tuple. *)
Inductive leading : value -> value -> Prop :=
| lead_self v : leading v v
| lead_array x l w : leading x w -> leading (VArray (x :: l)) w
| lead_tuple l x w : In x l -> leading x w -> leading (VTuple l) w
| lead_key x ks vs w : leading x w -> leading (VMap (x :: ks) vs) w
| lead_value ks x vs w : leading x w -> leading (VMap ks (x :: vs)) w.

(** The type a value is given when none is known, rule by rule: a scalar gets its own type (with
    its own scale, zone or precision), NULL is a nullable string, an array or map takes the types
    of its first elements, strings if it has none, and a tuple takes one type per component. *)
Definition scalar_type (t : ty) : bool :=
  match t with TArray _ | TTuple _ | TMap _ _ => false | _ => plain_type t end.
Inductive guessed : value -> ty -> Prop :=
| gs_scalar v t : scalar_type t = true -> typed t v = true -> guessed v t
| gs_null : guessed VNull (TNullable TString)
| gs_array l t : guessed_first l t -> guessed (VArray l) (TArray t)
| gs_tuple l ts : guessed_all l ts -> guessed (VTuple l) (TTuple ts)
| gs_map ks vs k v : guessed_first ks k -> guessed_first vs v -> guessed (VMap ks vs) (TMap k v)
with guessed_first : list value -> ty -> Prop :=
| gs_none : guessed_first [] TString
| gs_first x r t : guessed x t -> guessed_first (x :: r) t
with guessed_all : list value -> list ty -> Prop :=
| gs_nil : guessed_all [] []
| gs_cons x r t ts : guessed x t -> guessed_all r ts -> guessed_all (x :: r) (t :: ts).
