(** What the derive macro should do with a generic struct, said without the macro's traversals:
    where a type uses a type parameter, which traits the crate implements for which types, and what
    a type means once [Self] is known. *)
From Coq Require Import String Relations.
From Verif Require Import Base Types Text Rename Attrs Bounds.
Local Open Scope list_scope.
Local Open Scope N_scope.

(** The parts of the syntax tree as ordinary lists. *)
Fixpoint types_of (l : stys) : list sty := match l with snil => [] | scons t l => t :: types_of l end.
Fixpoint segments_of (l : segs) : list (text * sargs) := match l with gnil => [] | gcons i a l => (i, a) :: segments_of l end.
Fixpoint gargs_of (l : gargs) : list sty :=
  match l with anil => [] | atype t l | aassoc _ t l => t :: gargs_of l | aother _ l => gargs_of l end.
Fixpoint traits_of (l : sbounds) : list (bool * segs) :=
  match l with bnil => [] | btrait b p l => (b, p) :: traits_of l | blife _ l => traits_of l end.
Definition opt_of (o : osty) : list sty := match o with onone => [] | osome t => [t] end.

(** The types written between the brackets of a path segment. *)
Definition args_of (a : sargs) : list sty :=
  match a with ANone => [] | AAngle l => gargs_of l | AParen l o => types_of l ++ opt_of o end.
(** [PhantomData<..>], under any qualification. *)
Definition phantom (l : segs) : Prop := exists l' a, segments_of l = l' ++ [(txt "PhantomData", a)].

(** [part u t]: the type [u] is written directly inside [t], outside any [PhantomData]. *)
Inductive in_path (u : sty) (l : segs) : Prop :=
| in_path_arg i a : ~ phantom l -> In (i, a) (segments_of l) -> In u (args_of a) -> in_path u l.
Inductive part (u : sty) : sty -> Prop :=
| part_array n : part u (TArray u n)
| part_group : part u (TGroup u)
| part_paren : part u (TParen u)
| part_ptr : part u (TPtr u)
| part_ref : part u (TRef u)
| part_slice : part u (TSlice u)
| part_tuple l : In u (types_of l) -> part u (TTuple l)
| part_input l o : In u (types_of l) -> part u (TFn l o)
| part_output l : part u (TFn l (osome u))
| part_qself lead l : part u (TPath (osome u) lead l)
| part_arg q lead l : in_path u l -> part u (TPath q lead l)
| part_impl b lead l : In (lead, l) (traits_of b) -> in_path u l -> part u (TImpl b)
| part_dyn b lead l : In (lead, l) (traits_of b) -> in_path u l -> part u (TDyn b).

(** A path that is just the name [i] (which is not [PhantomData]). *)
Definition just (i : text) (lead : bool) (l : segs) : Prop :=
  lead = false /\ ~ phantom l /\ exists a, l = gcons i a gnil.
(** The type is the parameter [i] (or, which is not legal Rust, [dyn i] or [impl i]). *)
Inductive names (i : text) : sty -> Prop :=
| names_path q lead l : just i lead l -> names i (TPath q lead l)
| names_impl b lead l : In (lead, l) (traits_of b) -> just i lead l -> names i (TImpl b)
| names_dyn b lead l : In (lead, l) (traits_of b) -> just i lead l -> names i (TDyn b).
(** [i] is used somewhere inside [t]. *)
Inductive uses (i : text) : sty -> Prop :=
| uses_here t : names i t -> uses i t
| uses_part u t : part u t -> uses i u -> uses i t.

(** The type is an associated type [T::X..] of the parameter [T], possibly in invisible groups. *)
Inductive assoc_of (i : text) : sty -> sty -> Prop :=
| assoc_here q lead a j b l : assoc_of i (TPath q lead (gcons i a (gcons j b l))) (TPath q lead (gcons i a (gcons j b l)))
| assoc_group t u : assoc_of i t u -> assoc_of i (TGroup t) u.

(** A field that the generated code converts with the traits of its type when sending. *)
Definition converted (f : @field (list wpred)) : Prop :=
  f_skip_ser f = false /\ f_ser f = None /\ f_bound f = None.

(* ---------------- the crate's implementations ---------------- *)
Definition app1 (name : string) (t : sty) : sty := TPath onone false (gcons (txt name) (AAngle (atype t anil)) gnil).
Definition app2 (name : string) (t u : sty) : sty := TPath onone false (gcons (txt name) (AAngle (atype t (atype u anil))) gnil).
Definition sql (tr : trait) : Prop := tr = FromSql \/ tr = ToSql.

(** Types without type arguments that have both [FromSql] and [ToSql]: std_deserialize.rs 13-192,
    std_serialize.rs 13-102, values/*.rs, mod.rs 23-45. *)
Definition plain_types : list string :=
  ["u8"; "u16"; "u32"; "u64"; "u128"; "i8"; "i16"; "i32"; "i64"; "i128"; "f32"; "f64"; "bf16"; "bool"; "String";
   "Value"; "Bytes"; "Uuid"; "Date"; "DateTime"; "Decimal"; "Ipv4"; "Ipv6"; "u256"; "i256"; "Point"; "Ring"; "Polygon";
   "MultiPolygon"]%string.

(** [implements known tr t]: the compiler finds an implementation of [tr] for [t], given the facts
    [known] (the where clause, and the implementations of other crates and of the user's types).
    Types are taken as written, with the crate's and std's names in scope. *)
Inductive implements (known : trait -> sty -> Prop) : trait -> sty -> Prop :=
| i_known tr t : known tr t -> implements known tr t
| i_plain tr n : sql tr -> In n plain_types -> implements known tr (path1 (txt n))
(* std_serialize.rs 104-108 *)
| i_str : implements known ToSql (TRef (path1 (txt "str")))
(* values/date.rs 280-302, values/fixed_point.rs *)
| i_const tr n k : sql tr -> In n ["DateTime64"; "FixedPoint32"; "FixedPoint64"; "FixedPoint128"; "FixedPoint256"]%string ->
    implements known tr (TPath onone false (gcons (txt n) (AAngle (aother k anil)) gnil))
(* std_serialize.rs 110-130, std_deserialize.rs 194-217: the element must be ['static] *)
| i_vec tr t : sql tr -> implements known tr t -> implements known Static t -> implements known tr (app1 "Vec" t)
(* std_serialize.rs 171-178, 205-209, std_deserialize.rs 285-296, 324-328, vec_tuple.rs 9-36 *)
| i_wrap tr n t : sql tr -> In n ["Option"; "Box"; "VecTuple"]%string -> implements known tr t -> implements known tr (app1 n t)
(* std_serialize.rs 132-169 *)
| i_map_to n k v : In n ["HashMap"; "BTreeMap"; "IndexMap"]%string ->
    implements known ToSql k -> implements known ToSql v -> implements known ToSql (app2 n k v)
(* std_deserialize.rs 219-283 *)
| i_hash_from n k v : In n ["HashMap"; "IndexMap"]%string ->
    implements known FromSql k -> implements known HashEq k -> implements known FromSql v -> implements known FromSql (app2 n k v)
| i_btree_from k v :
    implements known FromSql k -> implements known Ord k -> implements known FromSql v -> implements known FromSql (app2 "BTreeMap" k v)
(* std_serialize.rs 180-191, std_deserialize.rs 298-322 *)
| i_array_to t n : implements known ToSql t -> implements known ToSql (TArray t n)
| i_array_from t n : implements known FromSql t -> implements known Dflt t -> implements known Copy t ->
    implements known FromSql (TArray t n)
(* std_serialize.rs 193-203 *)
| i_ref t : implements known ToSql t -> implements known Clone t -> implements known ToSql (TRef t)
(* std_serialize.rs 211-246, std_deserialize.rs 330-383: up to 16 elements *)
| i_tuple tr l : sql tr -> types_of l <> [] -> (List.length (types_of l) <= 16)%nat ->
    (forall t, In t (types_of l) -> implements known tr t) -> implements known tr (TTuple l)
(* json.rs 9-36 *)
| i_json tr t : sql tr -> implements known Serialize t -> implements known tr (app1 "Json" t)
(* unit_value.rs 9-33 *)
| i_unit t : implements known FromSql t -> implements known ToSql t -> implements known Row (app1 "UnitValue" t)
(* groups and parentheses are transparent *)
| i_group tr t : implements known tr t -> implements known tr (TGroup t)
| i_paren tr t : implements known tr t -> implements known tr (TParen t).

(** [klickhouse::N] *)
Definition crate_path (n : string) : segs := gcons (txt "klickhouse") ANone (gcons (txt n) ANone gnil).
(** What the where clause says about the crate's two conversion traits. *)
Definition bound_in (g : generics) (tr : trait) (t : sty) : Prop :=
  exists n b, match tr with FromSql => n = "FromSql" | ToSql => n = "ToSql" | _ => False end%string /\
    In (WType t b) (g_where g) /\ In (true, crate_path n) (traits_of b).
(** The facts [facts] together with a where clause. *)
Definition under (g : generics) (facts : trait -> sty -> Prop) : trait -> sty -> Prop :=
  fun tr t => facts tr t \/ bound_in g tr t.
(** The facts together with both bounds on every type parameter. *)
Definition all_bounded (ps : list text) (facts : trait -> sty -> Prop) : trait -> sty -> Prop :=
  fun tr t => facts tr t \/ (sql tr /\ exists i, In i ps /\ t = path1 i).

(* ---------------- [Self] ---------------- *)
(** The meaning of a type, as a tree in which [Self] is replaced by what it stands for:
    [Self::X] and [<T>::X] are the item [X] of the meaning of [Self] and of [T]. *)
Inductive tree := Node (kind : string) (words : list text) (children : list tree).
Definition item (of : tree) (l : list tree) : tree := Node "item" [] (of :: l).
Fixpoint m_type (self : tree) (t : sty) : tree :=
  match t with
  | TArray e n => Node "array" [] [m_type self e; m_expr self n]
  | TFn l o => Node "fn" [] [Node "in" [] (m_types self l); Node "out" [] (m_opt self o)]
  | TGroup e => Node "group" [] [m_type self e]
  | TImpl b => Node "impl" [] (m_bounds self b)
  | TMacro s => Node "macro" [s] []
  | TParen e => Node "paren" [] [m_type self e]
  | TPath q lead l =>
      match q, lead, l with
      | onone, false, gcons i _ gnil => if text_eqb i (txt "Self") then self else Node "path" [] (m_segments self l)
      | onone, false, gcons i _ _ => if text_eqb i (txt "Self") then item self (m_tail self l) else Node "path" [] (m_segments self l)
      | onone, false, gnil => Node "path" [] []
      | onone, true, _ => Node "global" [] (m_segments self l)
      | osome t, true, _ => item (m_type self t) (m_segments self l)
      | osome t, false, _ => Node "as" [] (m_type self t :: m_segments self l)
      end
  | TPtr e => Node "ptr" [] [m_type self e]
  | TRef e => Node "ref" [] [m_type self e]
  | TSlice e => Node "slice" [] [m_type self e]
  | TDyn b => Node "dyn" [] (m_bounds self b)
  | TTuple l => Node "tuple" [] (m_types self l)
  | TOther s => Node "other" [s] []
  end
with m_types self l := match l with snil => [] | scons t l => m_type self t :: m_types self l end
with m_opt self o := match o with onone => [] | osome t => [m_type self t] end
with m_segments self l := match l with gnil => [] | gcons i a l => Node "segment" [i] (m_args self a) :: m_segments self l end
with m_tail self l := match l with gnil => [] | gcons _ _ l => m_segments self l end
with m_args self a :=
  match a with
  | ANone => []
  | AAngle l => [Node "angle" [] (m_gargs self l)]
  | AParen l o => [Node "in" [] (m_types self l); Node "out" [] (m_opt self o)]
  end
with m_gargs self l :=
  match l with
  | anil => []
  | atype t l => Node "type" [] [m_type self t] :: m_gargs self l
  | aassoc i t l => Node "assoc" [i] [m_type self t] :: m_gargs self l
  | aother s l => Node "arg" [s] [] :: m_gargs self l
  end
with m_bounds self l :=
  match l with
  | bnil => []
  | btrait lead p l => Node (if lead then "global" else "trait") [] (m_segments self p) :: m_bounds self l
  | blife n l => Node "life" [n] [] :: m_bounds self l
  end
with m_expr self e :=
  match e with
  | EBinary a b => Node "binary" [] [m_expr self a; m_expr self b]
  | ECall f l => Node "call" [] (m_expr self f :: m_exprs self l)
  | ECast e t => Node "cast" [] [m_expr self e; m_type self t]
  | EField e => Node "field" [] [m_expr self e]
  | EIndex a b => Node "index" [] [m_expr self a; m_expr self b]
  | EParen e => Node "paren" [] [m_expr self e]
  | EPath q lead l =>
      match q, lead, l with
      | onone, false, gcons i _ gnil => if text_eqb i (txt "Self") then self else Node "path" [] (m_segments self l)
      | onone, false, gcons i _ _ => if text_eqb i (txt "Self") then item self (m_tail self l) else Node "path" [] (m_segments self l)
      | onone, false, gnil => Node "path" [] []
      | onone, true, _ => Node "global" [] (m_segments self l)
      | osome t, true, _ => item (m_type self t) (m_segments self l)
      | osome t, false, _ => Node "as" [] (m_type self t :: m_segments self l)
      end
  | EUnary e => Node "unary" [] [m_expr self e]
  | EOther s => Node "other" [s] []
  end
with m_exprs self l := match l with enil => [] | econs e l => m_expr self e :: m_exprs self l end.
Definition m_pred (self : tree) (w : wpred) : tree :=
  match w with WType t b => Node "where" [] (m_type self t :: m_bounds self b) | WLife s => Node "life" [s] [] end.
Definition m_param (self : tree) (p : gparam) : tree :=
  match p with GType i b _ => Node "type" [i] (m_bounds self b) | GLife i => Node "life" [i] [] | GConst i s => Node "const" [i; s] [] end.
(** The receiver [Ident<'a, T, N>] of a derive. *)
Definition receiver_arg (p : gparam) : tree :=
  match p with
  | GType i _ _ => Node "type" [] [Node "path" [] [Node "segment" [i] []]]
  | GLife i | GConst i _ => Node "arg" [i] []
  end.
Definition receiver (ident : text) (g : generics) : tree :=
  Node "path" [] [Node "segment" [ident] (match g_params g with [] => [] | l => [Node "angle" [] (map receiver_arg l)] end)].

(* ---------------- the shape of the generated where clause ---------------- *)
(** Same parameter, without its default. *)
Inductive same_param : gparam -> gparam -> Prop :=
| same_type i b d : same_param (GType i b d) (GType i b None)
| same_life i : same_param (GLife i) (GLife i)
| same_const i s : same_param (GConst i s) (GConst i s).
(** Elements of [l] left out, order kept. *)
Inductive subseq {A} : list A -> list A -> Prop :=
| sub_nil : subseq [] []
| sub_keep x l m : subseq l m -> subseq (x :: l) (x :: m)
| sub_drop x l m : subseq l m -> subseq l (x :: m).
(** [T: ::klickhouse::FromSql + ::klickhouse::ToSql] *)
Definition both (t : sty) : wpred :=
  WType t (btrait true (crate_path "FromSql") (btrait true (crate_path "ToSql") bnil)).
(** The bound a field asks for by being of an associated type. *)
Definition assoc_bound (ps : list text) (f : bfield) (l : list sty) : Prop :=
  (exists i u, converted (snd f) /\ In i ps /\ assoc_of i (fst f) u /\ l = [u]) \/
  ((~ converted (snd f) \/ forall i u, In i ps -> ~ assoc_of i (fst f) u) /\ l = []).
