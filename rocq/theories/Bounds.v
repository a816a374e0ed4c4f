(** Model of how the derive macro treats a generic struct: klickhouse_derive/src/bound.rs,
    receiver.rs, internal.rs and the parts of row.rs that use the generics (39-61, 81-139) and that
    ask for trait implementations (149-660).
    Simplifications: spans and punctuation are dropped; the token [::] of a turbofish
    (receiver.rs 55-69) and the position of [as] in [<T as Trait>::X] are dropped, as no traversal
    looks at them; bounds written in the syntax that [syn] leaves unparsed ([Verbatim], on which
    both traversals stop with [todo!()]) are left out. *)
From Coq Require Import String.
From Verif Require Import Base Types Text Rename Attrs.
Local Open Scope list_scope.
Local Open Scope N_scope.

(** [syn::Type] and the parts of the syntax tree it contains.  The lists of the tree are types of
    their own so that one mutual recursion visits everything. *)
Inductive sty :=
| TArray (elem : sty) (len : expr)
| TFn (inputs : stys) (output : osty)
| TGroup (elem : sty)
| TImpl (b : sbounds)
| TMacro (tokens : text)
| TParen (elem : sty)
| TPath (qself : osty) (leading_colon : bool) (segments : segs)
| TPtr (elem : sty)
| TRef (elem : sty)
| TSlice (elem : sty)
| TDyn (b : sbounds)
| TTuple (elems : stys)
| TOther (tokens : text)                 (* [Infer], [Never], [Verbatim] *)
with stys := snil | scons (t : sty) (l : stys)
with osty := onone | osome (t : sty)     (* [Option<QSelf>], [ReturnType] *)
with segs := gnil | gcons (ident : text) (a : sargs) (l : segs)
with sargs := ANone | AAngle (l : gargs) | AParen (inputs : stys) (output : osty)
with gargs := anil
| atype (t : sty) (l : gargs)
| aassoc (ident : text) (t : sty) (l : gargs)      (* [Item = T] *)
| aother (tokens : text) (l : gargs)     (* a lifetime, a constraint or a constant *)
with sbounds := bnil
| btrait (leading_colon : bool) (segments : segs) (l : sbounds)
| blife (name : text) (l : sbounds)
(** The expressions receiver.rs 259-285 looks into (array lengths). *)
with expr :=
| EBinary (l r : expr)
| ECall (f : expr) (args : exprs)
| ECast (e : expr) (t : sty)
| EField (e : expr)
| EIndex (e i : expr)
| EParen (e : expr)
| EPath (qself : osty) (leading_colon : bool) (segments : segs)
| EUnary (e : expr)
| EOther (tokens : text)
with exprs := enil | econs (e : expr) (l : exprs).

(** [syn::WherePredicate] *)
Inductive wpred := WType (bounded : sty) (b : sbounds) | WLife (tokens : text).
(** [syn::GenericParam], [syn::Generics] *)
Inductive gparam :=
| GType (ident : text) (b : sbounds) (default : option sty)
| GLife (ident : text) | GConst (ident : text) (tokens : text).
Record generics := { g_params : list gparam; g_where : list wpred }.

Definition type_params (g : generics) : list text :=
  flat_map (fun p => match p with GType i _ _ => [i] | _ => [] end) (g_params g).

(** A field: its type and its attributes; a container: [ast::Container]. *)
Definition bfield := (sty * @field (list wpred))%type.
Record bcontainer := { bc_ident : text; bc_generics : generics;
  bc_attrs : @container (list wpred) sty; bc_fields : list bfield }.

(* ---------------- bound.rs ---------------- *)
(** bound.rs 8-27 *)
Definition without_defaults (g : generics) : generics :=
  {| g_params := map (fun p => match p with GType i b _ => GType i b None | _ => p end) (g_params g);
     g_where := g_where g |}.

(** bound.rs 29-39 *)
Definition with_where_predicates (g : generics) (l : list wpred) : generics :=
  {| g_params := g_params g; g_where := g_where g ++ l |}.

(** bound.rs 41-55 *)
Definition with_where_predicates_from_fields (fields : list bfield) (g : generics) : generics :=
  with_where_predicates g (flat_map (fun f => match f_bound (snd f) with Some l => l | None => [] end) fields).

(** internal.rs 3-8 *)
Fixpoint ungroup (t : sty) : sty := match t with TGroup u => ungroup u | _ => t end.

Fixpoint mem (x : text) (l : list text) : bool :=
  match l with [] => false | y :: l => text_eqb x y || mem x l end.
Fixpoint last_ident (l : segs) : option text :=
  match l with gnil => None | gcons i _ gnil => Some i | gcons _ _ l => last_ident l end.
Definition is_phantom (l : segs) : bool :=
  match last_ident l with Some i => text_eqb i (txt "PhantomData") | None => false end.
(** bound.rs 110-115: a path of one segment that names a type parameter. *)
Definition own_name (ps : list text) (lead : bool) (l : segs) : list text :=
  match l with gcons i _ gnil => if negb lead && mem i ps then [i] else [] | _ => [] end.

(** bound.rs 102-217: the type parameters a type uses, [relevant_type_params] as a list. *)
Fixpoint visit_type (ps : list text) (t : sty) : list text :=
  match t with
  | TArray e _ | TGroup e | TParen e | TPtr e | TRef e | TSlice e => visit_type ps e
  | TFn l o => visit_types ps l ++ visit_return ps o
  | TImpl b | TDyn b => visit_bounds ps b
  | TPath q lead l => visit_return ps q ++ (if is_phantom l then [] else own_name ps lead l ++ visit_segments ps l)
  | TTuple l => visit_types ps l
  | TMacro _ | TOther _ => []
  end
with visit_types ps l := match l with snil => [] | scons t l => visit_type ps t ++ visit_types ps l end
with visit_return ps o := match o with onone => [] | osome t => visit_type ps t end
with visit_segments ps l := match l with gnil => [] | gcons _ a l => visit_args ps a ++ visit_segments ps l end
with visit_args ps a :=
  match a with ANone => [] | AAngle l => visit_gargs ps l | AParen l o => visit_types ps l ++ visit_return ps o end
with visit_gargs ps l :=
  match l with
  | anil => [] | atype t l | aassoc _ t l => visit_type ps t ++ visit_gargs ps l | aother _ l => visit_gargs ps l
  end
with visit_bounds ps l :=
  match l with
  | bnil => []
  | btrait lead p l => (if is_phantom p then [] else own_name ps lead p ++ visit_segments ps p) ++ visit_bounds ps l
  | blife _ l => visit_bounds ps l
  end.

(** bound.rs 91-100: a field whose type is [T::X] for a type parameter [T]. *)
Definition assoc_usage (ps : list text) (t : sty) : list sty :=
  match ungroup t with
  | TPath q lead (gcons i a (gcons j b l)) => if mem i ps then [TPath q lead (gcons i a (gcons j b l))] else []
  | _ => []
  end.

(** row.rs 58-60 *)
Definition needs_serialize_bound (f : @field (list wpred)) : bool :=
  negb (f_skip_ser f) && negb (given (f_ser f)) && negb (given (f_bound f)).

Definition path1 (i : text) : sty := TPath onone false (gcons i ANone gnil).
(** [::klickhouse::FromSql] and [::klickhouse::ToSql], row.rs 50-53. *)
Definition klickhouse_path (name : string) : segs := gcons (txt "klickhouse") ANone (gcons (txt name) ANone gnil).
Definition sql_bounds : sbounds :=
  btrait true (klickhouse_path "FromSql") (btrait true (klickhouse_path "ToSql") bnil).

(** bound.rs 69-271 *)
Definition with_bound (fields : list bfield) (g : generics) : generics :=
  let ps := type_params g in
  let fs := filter (fun f => needs_serialize_bound (snd f)) fields in
  let relevant := flat_map (fun f => visit_type ps (fst f)) fs in
  let associated := flat_map (fun f => assoc_usage ps (fst f)) fs in
  let bounded := map path1 (filter (fun i => mem i relevant) ps) ++ associated in
  with_where_predicates g (map (fun t => WType t sql_bounds) bounded).

(** row.rs 39-56 *)
Definition build_generics (c : bcontainer) : generics :=
  let g := without_defaults (bc_generics c) in
  let g := with_where_predicates_from_fields (bc_fields c) g in
  match c_bound (bc_attrs c) with
  | Some l => with_where_predicates g l
  | None => with_bound (bc_fields c) g
  end.

(* ---------------- row.rs: what the generated code asks for ---------------- *)
(** Traits that the generated code or the crate's own implementations mention. *)
Inductive trait := FromSql | ToSql | Row | Dflt | Static | HashEq | Ord | Copy | Clone | Serialize.

(** row.rs 149-178 *)
Definition unwrap_vec_type (t : sty) : option sty :=
  match t with
  | TPath onone false (gcons i (AAngle (atype u anil)) gnil) => if text_eqb i (txt "Vec") then Some u else None
  | _ => None
  end.

(** An obligation; [None] stands for the panic of [expect("invalid non-Vec nested type")]. *)
Definition elem_needs (t : sty) : list (option (trait * sty)) :=
  match unwrap_vec_type t with Some u => [Some (Row, u)] | None => [None] end.

(** [column_names], row.rs 202-225, and [serialize_row], row.rs 257-325, for one field. *)
Definition serialize_needs (f : bfield) : list (option (trait * sty)) :=
  let '(t, a) := f in
  if f_skip_ser a then [] else
  (if f_nested a then elem_needs t else if f_flatten a then [Some (Row, t)] else []) ++
  (if given (f_ser a) then [] else
   if f_nested a then elem_needs t else if f_flatten a then [Some (Row, t)] else [Some (ToSql, t)]).

(** [deserialize_row], row.rs 383-650, for one field; [expr_is_missing] 653-680. *)
Definition default_needs (f : bfield) : list (option (trait * sty)) :=
  match f_default (snd f) with DDefault => [Some (Dflt, fst f)] | _ => [] end.
Definition deserialize_needs (f : bfield) : list (option (trait * sty)) :=
  let '(t, a) := f in
  (if f_flatten a then [Some (Row, t)] else []) ++
  (if f_skip_de a then default_needs f
   else if f_flatten a then []
   else (if f_nested a then elem_needs t else if given (f_de a) then [] else [Some (FromSql, t)]) ++ default_needs f).

(** Everything the body of the generated [impl] needs. *)
Definition impl_needs (c : bcontainer) : list (option (trait * sty)) :=
  (match c_into (bc_attrs c) with
   | Some t => [Some (Row, t)]
   | None => flat_map serialize_needs (bc_fields c) end) ++
  (match c_from (bc_attrs c), c_try_from (bc_attrs c) with
   | Some t, _ | None, Some t => [Some (Row, t)]
   | None, None => flat_map deserialize_needs (bc_fields c) end).

(** row.rs 99-118, 180-200: the types that appear in the body of
    [const fn __S_column_count_klickhouse()], which stands outside the [impl] and has no parameters. *)
Definition const_fn_types (c : bcontainer) : list (option sty) :=
  if existsb (fun f => f_flatten (snd f)) (bc_fields c) then [] else
  match c_into (bc_attrs c) with
  | Some _ => []
  | None => map (fun f => unwrap_vec_type (fst f))
              (filter (fun f => negb (f_skip_ser (snd f)) && f_nested (snd f)) (bc_fields c))
  end.

(* ---------------- receiver.rs ---------------- *)
(** receiver.rs 10-16: the type the macro writes for [Self], [Ident<'a, T, N>]. *)
Fixpoint own_args (l : list gparam) : gargs :=
  match l with
  | [] => anil
  | GType i _ _ :: l => atype (path1 i) (own_args l)
  | GLife i :: l | GConst i _ :: l => aother i (own_args l)
  end.
Definition self_ty (ident : text) (g : generics) : segs :=
  gcons ident (match g_params g with [] => ANone | l => AAngle (own_args l) end) gnil.

Definition self_ident : text := txt "Self".
(** What [self_to_qself] (receiver.rs 30-53) sees: [Self] alone, [Self::..] or another path. *)
Inductive shape := IsSelf | InSelf (rest : segs) | NotSelf.
Definition self_shape (q : osty) (lead : bool) (l : segs) : shape :=
  match q, lead, l with
  | onone, false, gcons i _ rest =>
      if text_eqb i self_ident then match rest with gnil => IsSelf | _ => InSelf rest end else NotSelf
  | _, _, _ => NotSelf
  end.

(** receiver.rs 73-288.  The receiver itself is not visited again: it contains no [Self]
    ([BoundProofs.receiver_stable]). *)
Fixpoint rep_type (r : segs) (t : sty) : sty :=
  match t with
  | TArray e n => TArray (rep_type r e) (rep_expr r n)
  | TFn l o => TFn (rep_types r l) (rep_return r o)
  | TGroup e => TGroup (rep_type r e)
  | TImpl b => TImpl (rep_bounds r b)
  | TMacro s => TMacro s
  | TParen e => TParen (rep_type r e)
  | TPath q lead l =>
      match self_shape q lead l with
      | IsSelf => TPath onone false r
      | InSelf _ => TPath (osome (TPath onone false r)) true (rep_tail r l)
      | NotSelf => TPath (rep_return r q) lead (rep_segments r l)
      end
  | TPtr e => TPtr (rep_type r e)
  | TRef e => TRef (rep_type r e)
  | TSlice e => TSlice (rep_type r e)
  | TDyn b => TDyn (rep_bounds r b)
  | TTuple l => TTuple (rep_types r l)
  | TOther s => TOther s
  end
with rep_types r l := match l with snil => snil | scons t l => scons (rep_type r t) (rep_types r l) end
with rep_return r o := match o with onone => onone | osome t => osome (rep_type r t) end
with rep_segments r l := match l with gnil => gnil | gcons i a l => gcons i (rep_args r a) (rep_segments r l) end
(** the segments after the first one, receiver.rs 51-52 *)
with rep_tail r l := match l with gnil => gnil | gcons _ _ l => rep_segments r l end
with rep_args r a :=
  match a with ANone => ANone | AAngle l => AAngle (rep_gargs r l) | AParen l o => AParen (rep_types r l) (rep_return r o) end
with rep_gargs r l :=
  match l with
  | anil => anil
  | atype t l => atype (rep_type r t) (rep_gargs r l)
  | aassoc i t l => aassoc i (rep_type r t) (rep_gargs r l)
  | aother s l => aother s (rep_gargs r l)
  end
with rep_bounds r l :=
  match l with
  | bnil => bnil
  | btrait lead p l => btrait lead (rep_segments r p) (rep_bounds r l)
  | blife n l => blife n (rep_bounds r l)
  end
with rep_expr r e :=
  match e with
  | EBinary a b => EBinary (rep_expr r a) (rep_expr r b)
  | ECall f l => ECall (rep_expr r f) (rep_exprs r l)
  | ECast e t => ECast (rep_expr r e) (rep_type r t)
  | EField e => EField (rep_expr r e)
  | EIndex a b => EIndex (rep_expr r a) (rep_expr r b)
  | EParen e => EParen (rep_expr r e)
  | EPath q lead l =>
      match self_shape q lead l with
      | IsSelf => EPath onone false r
      | InSelf _ => EPath (osome (TPath onone false r)) true (rep_tail r l)
      | NotSelf => EPath (rep_return r q) lead (rep_segments r l)
      end
  | EUnary e => EUnary (rep_expr r e)
  | EOther s => EOther s
  end
with rep_exprs r l := match l with enil => enil | econs e l => econs (rep_expr r e) (rep_exprs r l) end.

(** receiver.rs 214-239 [visit_generics_mut]: parameter bounds and the where clause; defaults are
    not visited. *)
Definition rep_generics (r : segs) (g : generics) : generics :=
  {| g_params := map (fun p => match p with GType i b d => GType i (rep_bounds r b) d | _ => p end) (g_params g);
     g_where := map (fun w => match w with WType t b => WType (rep_type r t) (rep_bounds r b) | _ => w end) (g_where g) |}.

(** receiver.rs 10-20, 241-257 *)
Definition replace_receiver (ident : text) (g : generics) (tys : list sty) : generics * list sty :=
  let r := self_ty ident g in (rep_generics r g, map (rep_type r) tys).
