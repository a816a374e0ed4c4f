(** A whole [#[derive(Row)]]: from the declaration of a struct with its attributes to the code it
    stands for.  Attrs.v reads the attributes (attr.rs, ast.rs), Derive.v is the generated code
    (row.rs); this file is what lies between: klickhouse_derive/src/row.rs 144-151, 228-236, 264-321,
    343-376, 484-497, 628-683, which turn the settings of a field into the code for it.
    The functions the attributes name are the user's: parameters ([funs]). *)
From Coq Require Import String.
From Verif Require Import Base Types Text Rename RawRow Numeric Convert Migrate Attrs Derive.
Local Open Scope list_scope.
Local Open Scope N_scope.

(** The functions that paths stand for: [serialize_with], [deserialize_with], [default = ".."] on a
    field and on a struct; and whether [format_ident!("__ext_{name}")] (row.rs 413-417) is an
    identifier: it panics the macro otherwise. *)
Record funs := { u_ser : path -> rval -> res value; u_de : path -> ty -> value -> res rval;
  u_default : path -> sval; u_struct : path -> list sval; u_nameable : text -> bool }.

(** A declared field: its identifier, its attributes, and the [Default::default()] of its type, if there is one. *)
Record fhead := { h_ident : text; h_attrs : list attribute; h_std : option sval }.
(** The type of a field: one with [ToSql] and [FromSql], a [Vec] of a row struct, or a row struct;
    a struct is its attributes, its [Default::default()], if any, and its fields. *)
Inductive ftype :=
| FPlain (r : rty)
| FVec (attrs : list attribute) (std : option (list sval)) (fs : list (fhead * ftype))
| FRow (attrs : list attribute) (std : option (list sval)) (fs : list (fhead * ftype)).

(** The [Row] implementation of a struct: [COLUMN_COUNT], [column_names], [serialize_row] and
    [deserialize_row], row.rs 108-133. *)
Record row_impl := { ri_count : option nat; ri_names : option (list text);
  ri_serialize : (text -> option ty) -> list sval -> res (list (text * value));
  ri_deserialize : list (text * ty * value) -> res (list sval) }.

Section Declare.
  Context {where_ type_ : Type} (parse_path : text -> option path)
          (parse_where : text -> option where_) (parse_type : text -> option type_) (u : funs).

  (** row.rs 653-683 [expr_is_missing]; [cd] is [__default] (row.rs 618-631), if the struct has one.
      [None]: the generated code does not compile (the type has no [Default]). *)
  Definition field_default (cd : option (list sval)) (j : nat) (h : fhead) (f : @field where_) : option (option sval) :=
    match f_default f with
    | DDefault => match h_std h with Some d => Some (Some d) | None => None end
    | DPath p => Some (Some (u_default u p))
    | DNone => match cd with
               | None => Some None
               | Some vs => match nth_error vs j with Some d => Some (Some d) | None => None end
               end
    end.
  (** row.rs 618-631: [__default]; the outer [None] as above. *)
  Definition struct_default (std : option (list sval)) (c : @container where_ type_) : option (option (list sval)) :=
    match c_default c with
    | DDefault => match std with Some vs => Some (Some vs) | None => None end
    | DPath p => Some (Some (u_struct u p))
    | DNone => Some None
    end.

  (** A plain field is converted by the functions given (row.rs 264-269, which does not hand the
      hint over, and 490-493), otherwise by its type (row.rs 312-316, 485-489). *)
  Definition field_rty (r : rty) (f : @field where_) : rty :=
    match f_ser f, f_de f with
    | None, None => r
    | Some p, None => RUser (by_attribute r) (fun x _ => u_ser u p x) (from_sql r)
    | None, Some q => RUser true (to_sql r) (u_de u q)
    | Some p, Some q => RUser true (fun x _ => u_ser u p x) (u_de u q)
    end.

  Definition field_info (f : @field where_) (d : option sval) : info :=
    {| i_name := f_name f; i_skip_ser := f_skip_ser f; i_skip_de := f_skip_de f; i_default := d |}.

  (** The fields of a struct, [ct] being the code for a field of a given type. *)
  Definition compile_fields (ct : ftype -> @field where_ -> option kind) (cd : option (list sval)) :=
    fix go (j : nat) (ds : list (fhead * ftype)) (gs : list (@field where_)) : option (list (info * kind)) :=
      match ds, gs with
      | [], [] => Some []
      | (h, t) :: ds', g :: gs' =>
          match field_default cd j h g, ct t g, go (S j) ds' gs' with
          | Some d, Some k, Some r => Some ((field_info g d, k) :: r)
          | _, _, _ => None
          end
      | _, _ => None
      end.
  Definition named_fields (ds : list (fhead * ftype)) : list (text * list attribute) :=
    map (fun d => (h_ident (fst d), h_attrs (fst d))) ds.
  (** [deny_unknown_fields] makes code that does not compile ([KlickhouseError::UnknownField] does not
      exist), except that with a flattened field the arm is not used (row.rs 527-539). *)
  Definition denies (c : @container where_ type_) (fs : list (info * kind)) : bool :=
    c_deny c && negb (existsb (fun f => is_flatten (snd f)) fs).
  (** A struct without [from], [try_from] and [into]. *)
  Definition compile_struct (ct : ftype -> @field where_ -> option kind)
      (a : list attribute) (std : option (list sval)) (ds : list (fhead * ftype)) : option (list (info * kind)) :=
    match derive parse_path parse_where parse_type a (DNamed (named_fields ds)) with
    | ROk c gs =>
        match c_from c, c_try_from c, c_into c, struct_default std c with
        | None, None, None, Some cd =>
            match compile_fields ct cd 0 ds gs with
            | Some fs => if denies c fs then None else Some fs
            | None => None
            end
        | _, _, _, _ => None
        end
    | _ => None
    end.

  (** The code for a field by its type and settings.  [nested] needs a [Vec] (row.rs 197, 271) of a row
      struct, [flatten] a row struct, anything else a type that converts.
      Left out (as if they did not compile): [nested] together with [flatten], either together with
      [serialize_with] or [deserialize_with], and inner structs with [from], [try_from] or [into]. *)
  Fixpoint compile_type (t : ftype) (f : @field where_) : option kind :=
    match t with
    | FPlain r => if f_nested f || f_flatten f then None else Some (KPlain (field_rty r f))
    | FVec a std ds =>
        if f_nested f && negb (f_flatten f) && negb (given (f_ser f)) && negb (given (f_de f)) && (f_skip_de f || u_nameable u (f_name f))
        then option_map KNested (compile_struct compile_type a std ds) else None
    | FRow a std ds =>
        if f_flatten f && negb (f_nested f) && negb (given (f_ser f)) && negb (given (f_de f))
        then option_map KFlatten (compile_struct compile_type a std ds) else None
    end.
  Definition compile := compile_struct compile_type.

  (** ** [from], [try_from] and [into] *)
  (** The [Row] implementations of the types named there, and the conversions: [From], [TryFrom] (its
      error made a [KlickhouseError]) and [Into]. *)
  Record conversions := { v_row : type_ -> row_impl; v_from : type_ -> list sval -> list sval;
    v_try_from : type_ -> list sval -> res (list sval); v_into : type_ -> list sval -> list sval }.

  (** row.rs 144-151, 180-182, 202-205, 228-236: the writing half. *)
  Definition impl_writes (v : conversions) (c : @container where_ type_) (fs : option (list (info * kind))) :
      option (option nat * option (list text) * ((text -> option ty) -> list sval -> res (list (text * value)))) :=
    match c_into c with
    | Some t => Some (None, None, fun hints x => ri_serialize (v_row v t) hints (v_into v t x))
    | None => match fs with
              | Some fs => Some (column_count fs, Some (column_names fs), fun hints x => serialize hints fs x)
              | None => None
              end
    end.
  (** row.rs 343-376: the reading half. *)
  Definition impl_reads (v : conversions) (c : @container where_ type_) (fs : option (list (info * kind))) :
      option (list (text * ty * value) -> res (list sval)) :=
    match c_from c with
    | Some t => Some (fun cols => x <- ri_deserialize (v_row v t) cols ;; Ok (v_from v t x))
    | None => match c_try_from c with
              | Some t => Some (fun cols => x <- ri_deserialize (v_row v t) cols ;; v_try_from v t x)
              | None => match fs with
                        | Some fs => if denies c fs then None else Some (fun cols => deserialize fs cols)
                        | None => None
                        end
              end
    end.
  (** row.rs 82-136 [expand_derive_serialize].  Left out: a struct read through [from]/[try_from] whose (then
      unused) defaults would not compile counts as not compiling, unless it also has [into]. *)
  Definition derive_row (v : conversions) (a : list attribute) (std : option (list sval)) (ds : list (fhead * ftype)) : option row_impl :=
    match derive parse_path parse_where parse_type a (DNamed (named_fields ds)) with
    | ROk c gs =>
        let fs := match struct_default std c with Some cd => compile_fields compile_type cd 0 ds gs | None => None end in
        match impl_writes v c fs, impl_reads v c fs with
        | Some (n, names, ser), Some de => Some {| ri_count := n; ri_names := names; ri_serialize := ser; ri_deserialize := de |}
        | _, _ => None
        end
    | _ => None
    end.
End Declare.
