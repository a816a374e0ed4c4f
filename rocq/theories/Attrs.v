(** Model of the attribute parsing of the derive macro: klickhouse_derive/src/attr.rs, ast.rs 24-104,
    ctxt.rs and check.rs.  Errors are collected ([Ctxt]) and fail the macro (row.rs 94-101).
    Simplifications: spans are dropped, so an error carries only what was wrong; a path is its list
    of segments (generic arguments are dropped); [repr(packed)] (attr.rs 292-304) is left out. *)
From Coq Require Import String.
From Verif Require Import Base Types Text Rename.
Local Open Scope list_scope.
Local Open Scope N_scope.

(** [syn::Meta], the items between the parentheses of [#[klickhouse(..)]]. *)
Definition path := list text.
Inductive mvalue := VStr (s : text)      (* a string literal *)
| VLit                                   (* another literal *)
| VExpr.                                 (* an expression that is no literal *)
Inductive meta := MPath (p : path) | MNameValue (p : path) (v : mvalue) | MList (p : path).
(** [syn::Attribute]: another attribute, a malformed [#[klickhouse ..]], or its items. *)
Inductive attribute := AOther | ABad | AItems (l : list meta).
Definition meta_path (m : meta) : path := match m with MPath p | MNameValue p _ | MList p => p end.

(** symbol.rs 31-53: [path == SYMBOL] is [path.is_ident(..)]. *)
Definition is_ident (p : path) (s : string) : bool := match p with [w] => text_eqb w (txt s) | _ => false end.

(** What is pushed onto [Ctxt::errors]. *)
Inductive aerr :=
| EDuplicate (name : string)             (* attr.rs 41-44 *)
| EUnknown (p : path)                    (* attr.rs 284-288, 508-512 *)
| ENotString (name : string)             (* attr.rs 611-616 *)
| EUnparsable (name : string)            (* attr.rs 627-629, 647-649, 655-661 *)
| ERenameRule                            (* attr.rs 158 *)
| EDefaultPlace                          (* attr.rs 174-189, 203-222 *)
| ESyntax                                (* attr.rs 590 *)
| EFromAndTryFrom                        (* check.rs 11-16 *)
| EEnum | EUnion | ETuple | EUnit.       (* ast.rs 42-51, 74-81 *)

(** attr.rs 37-50 [Attr::set], 71-73 [BoolAttr::set_true]. *)
Definition set {T} (name : string) (v : T) (a : option T) : option T * list aerr :=
  match a with Some _ => (a, [EDuplicate name]) | None => (Some v, []) end.

(** attr.rs 355-362 *)
Inductive dflt := DNone | DDefault | DPath (p : path).

Section Attrs.
  (** [syn]'s parsers for the text of a string literal; predicates and types are opaque. *)
  Context {where_ type_ : Type} (parse_path : text -> option path)
          (parse_where : text -> option where_) (parse_type : text -> option type_).

  (** attr.rs 595-663: the value of [name = value] as a string, parsed.  [None]: a value that is
      no literal is skipped without an error ([let Expr::Lit(..) = .. else { continue }]). *)
  Definition get_value {A} (name : string) (parse : text -> option A) (v : mvalue) : option A * list aerr :=
    match v with
    | VStr s => match parse s with Some a => (Some a, []) | None => (None, [EUnparsable name]) end
    | VLit => (None, [ENotString name])
    | VExpr => (None, [])
    end.

  (* ---------------- fields ---------------- *)
  (** The locals of [Field::from_ast], attr.rs 372-380. *)
  Record fslots := { s_rename : option text; s_nested : option unit; s_skip_ser : option unit; s_skip_de : option unit;
    s_flatten : option unit; s_default : option dflt; s_ser : option path; s_de : option path; s_bound : option where_ }.
  Definition fslots0 : fslots := {| s_rename := None; s_nested := None; s_skip_ser := None; s_skip_de := None;
    s_flatten := None; s_default := None; s_ser := None; s_de := None; s_bound := None |}.

  Definition set_rename v (s : fslots) : fslots * list aerr :=
    let '(a, e) := set "rename" v (s_rename s) in
    ({| s_rename := a; s_nested := s_nested s; s_skip_ser := s_skip_ser s; s_skip_de := s_skip_de s; s_flatten := s_flatten s;
        s_default := s_default s; s_ser := s_ser s; s_de := s_de s; s_bound := s_bound s |}, e).
  Definition set_nested (s : fslots) : fslots * list aerr :=
    let '(a, e) := set "nested" tt (s_nested s) in
    ({| s_rename := s_rename s; s_nested := a; s_skip_ser := s_skip_ser s; s_skip_de := s_skip_de s; s_flatten := s_flatten s;
        s_default := s_default s; s_ser := s_ser s; s_de := s_de s; s_bound := s_bound s |}, e).
  Definition set_skip_ser (s : fslots) : fslots * list aerr :=
    let '(a, e) := set "skip_serializing" tt (s_skip_ser s) in
    ({| s_rename := s_rename s; s_nested := s_nested s; s_skip_ser := a; s_skip_de := s_skip_de s; s_flatten := s_flatten s;
        s_default := s_default s; s_ser := s_ser s; s_de := s_de s; s_bound := s_bound s |}, e).
  Definition set_skip_de (s : fslots) : fslots * list aerr :=
    let '(a, e) := set "skip_deserializing" tt (s_skip_de s) in
    ({| s_rename := s_rename s; s_nested := s_nested s; s_skip_ser := s_skip_ser s; s_skip_de := a; s_flatten := s_flatten s;
        s_default := s_default s; s_ser := s_ser s; s_de := s_de s; s_bound := s_bound s |}, e).
  Definition set_flatten (s : fslots) : fslots * list aerr :=
    let '(a, e) := set "flatten" tt (s_flatten s) in
    ({| s_rename := s_rename s; s_nested := s_nested s; s_skip_ser := s_skip_ser s; s_skip_de := s_skip_de s; s_flatten := a;
        s_default := s_default s; s_ser := s_ser s; s_de := s_de s; s_bound := s_bound s |}, e).
  Definition set_default v (s : fslots) : fslots * list aerr :=
    let '(a, e) := set "default" v (s_default s) in
    ({| s_rename := s_rename s; s_nested := s_nested s; s_skip_ser := s_skip_ser s; s_skip_de := s_skip_de s; s_flatten := s_flatten s;
        s_default := a; s_ser := s_ser s; s_de := s_de s; s_bound := s_bound s |}, e).
  Definition set_ser v (s : fslots) : fslots * list aerr :=
    let '(a, e) := set "serialize_with" v (s_ser s) in
    ({| s_rename := s_rename s; s_nested := s_nested s; s_skip_ser := s_skip_ser s; s_skip_de := s_skip_de s; s_flatten := s_flatten s;
        s_default := s_default s; s_ser := a; s_de := s_de s; s_bound := s_bound s |}, e).
  Definition set_de v (s : fslots) : fslots * list aerr :=
    let '(a, e) := set "deserialize_with" v (s_de s) in
    ({| s_rename := s_rename s; s_nested := s_nested s; s_skip_ser := s_skip_ser s; s_skip_de := s_skip_de s; s_flatten := s_flatten s;
        s_default := s_default s; s_ser := s_ser s; s_de := a; s_bound := s_bound s |}, e).
  Definition set_bound v (s : fslots) : fslots * list aerr :=
    let '(a, e) := set "bound" v (s_bound s) in
    ({| s_rename := s_rename s; s_nested := s_nested s; s_skip_ser := s_skip_ser s; s_skip_de := s_skip_de s; s_flatten := s_flatten s;
        s_default := s_default s; s_ser := s_ser s; s_de := s_de s; s_bound := a |}, e).

  Definition with_value {A S} (r : option A * list aerr) (f : A -> S -> S * list aerr) (s : S) : S * list aerr :=
    match r with
    | (Some a, e) => let '(s', e') := f a s in (s', e ++ e')
    | (None, e) => (s, e)
    end.

  (** attr.rs 392-515: one iteration of the loop over the items of a field. *)
  Definition field_item (s : fslots) (m : meta) : fslots * list aerr :=
    match m with
    | MNameValue p v =>
        if is_ident p "rename" then with_value (get_value "rename" (fun t => Some t) v) set_rename s
        else if is_ident p "default" then with_value (get_value "default" parse_path v) (fun q => set_default (DPath q)) s
        else if is_ident p "serialize_with" then with_value (get_value "serialize_with" parse_path v) set_ser s
        else if is_ident p "deserialize_with" then with_value (get_value "deserialize_with" parse_path v) set_de s
        else if is_ident p "with" then with_value (get_value "with" parse_path v)
               (fun q s => let '(s1, e1) := set_ser (q ++ [txt "to_sql"]) s in
                           let '(s2, e2) := set_de (q ++ [txt "from_sql"]) s1 in (s2, e1 ++ e2)) s
        else if is_ident p "bound" then with_value (get_value "bound" parse_where v) set_bound s
        else (s, [EUnknown p])
    | MPath p =>
        if is_ident p "default" then set_default DDefault s
        else if is_ident p "skip_serializing" then set_skip_ser s
        else if is_ident p "nested" then set_nested s
        else if is_ident p "flatten" then set_flatten s
        else if is_ident p "skip_deserializing" then set_skip_de s
        else if is_ident p "skip" then
          let '(s1, e1) := set_skip_ser s in let '(s2, e2) := set_skip_de s1 in (s2, e1 ++ e2)
        else (s, [EUnknown p])
    | MList p => (s, [EUnknown p])
    end.

  (** attr.rs 387-391, 582-598: the items of all attributes, malformed ones reported. *)
  Fixpoint over_items {S} (step : S -> meta -> S * list aerr) (s : S) (l : list meta) : S * list aerr :=
    match l with
    | [] => (s, [])
    | m :: l => let '(s1, e1) := step s m in let '(s2, e2) := over_items step s1 l in (s2, e1 ++ e2)
    end.
  Fixpoint over_attrs {S} (step : S -> meta -> S * list aerr) (s : S) (l : list attribute) : S * list aerr :=
    match l with
    | [] => (s, [])
    | AOther :: l => over_attrs step s l
    | ABad :: l => let '(s', e) := over_attrs step s l in (s', ESyntax :: e)
    | AItems i :: l => let '(s1, e1) := over_items step s i in let '(s2, e2) := over_attrs step s1 l in (s2, e1 ++ e2)
    end.

  (** attr.rs 342-353 [Field]; [f_name] and [f_renamed] are [Name]. *)
  Record field := { f_name : text; f_renamed : bool; f_skip_ser : bool; f_skip_de : bool; f_default : dflt;
    f_ser : option path; f_de : option path; f_bound : option where_; f_nested : bool; f_flatten : bool }.
  Definition given {A} (o : option A) : bool := match o with Some _ => true | None => false end.
  Definition or_else {A} (o : option A) (d : A) : A := match o with Some a => a | None => d end.

  (** attr.rs 84-90 [unraw]: [trim_left_matches("r#")]. *)
  Fixpoint unraw_go (fuel : nat) (s : text) : text :=
    match fuel, s with
    | S fuel, 114 :: 35 :: s => unraw_go fuel s
    | _, _ => s
    end.
  Definition unraw (s : text) : text := unraw_go (List.length s) s.

  (** attr.rs 364-541 [Field::from_ast] of a named field. *)
  Definition field_from_ast (ident : text) (attrs : list attribute) (container_default : dflt) : field * list aerr :=
    let '(s, e) := over_attrs field_item fslots0 attrs in
    let default := match container_default with
      | DNone => if given (s_skip_de s) then (match s_default s with Some d => Some d | None => Some DDefault end) else s_default s
      | _ => s_default s
      end in
    ({| f_name := or_else (s_rename s) (unraw ident); f_renamed := given (s_rename s);
        f_skip_ser := given (s_skip_ser s); f_skip_de := given (s_skip_de s); f_default := or_else default DNone;
        f_ser := s_ser s; f_de := s_de s; f_bound := s_bound s; f_nested := given (s_nested s); f_flatten := given (s_flatten s) |}, e).

  (* ---------------- containers ---------------- *)
  (** What is under the derive: [syn::Data]. *)
  Inductive data := DNamed (fields : list (text * list attribute)) | DTuple | DUnit | DEnum | DUnion.
  Definition is_named (d : data) : bool := match d with DNamed _ => true | _ => false end.

  (** The locals of [Container::from_ast], attr.rs 122-129. *)
  Record cslots := { k_rename : option text; k_deny : option unit; k_default : option dflt; k_rename_all : option rule;
    k_bound : option where_; k_from : option type_; k_try_from : option type_; k_into : option type_ }.
  Definition cslots0 : cslots := {| k_rename := None; k_deny := None; k_default := None; k_rename_all := None;
    k_bound := None; k_from := None; k_try_from := None; k_into := None |}.
  Definition setk_rename v (s : cslots) : cslots * list aerr :=
    let '(a, e) := set "rename" v (k_rename s) in
    ({| k_rename := a; k_deny := k_deny s; k_default := k_default s; k_rename_all := k_rename_all s; k_bound := k_bound s;
        k_from := k_from s; k_try_from := k_try_from s; k_into := k_into s |}, e).
  Definition setk_deny (s : cslots) : cslots * list aerr :=
    let '(a, e) := set "deny_unknown_fields" tt (k_deny s) in
    ({| k_rename := k_rename s; k_deny := a; k_default := k_default s; k_rename_all := k_rename_all s; k_bound := k_bound s;
        k_from := k_from s; k_try_from := k_try_from s; k_into := k_into s |}, e).
  Definition setk_default v (s : cslots) : cslots * list aerr :=
    let '(a, e) := set "default" v (k_default s) in
    ({| k_rename := k_rename s; k_deny := k_deny s; k_default := a; k_rename_all := k_rename_all s; k_bound := k_bound s;
        k_from := k_from s; k_try_from := k_try_from s; k_into := k_into s |}, e).
  Definition setk_rename_all v (s : cslots) : cslots * list aerr :=
    let '(a, e) := set "rename_all" v (k_rename_all s) in
    ({| k_rename := k_rename s; k_deny := k_deny s; k_default := k_default s; k_rename_all := a; k_bound := k_bound s;
        k_from := k_from s; k_try_from := k_try_from s; k_into := k_into s |}, e).
  Definition setk_bound v (s : cslots) : cslots * list aerr :=
    let '(a, e) := set "bound" v (k_bound s) in
    ({| k_rename := k_rename s; k_deny := k_deny s; k_default := k_default s; k_rename_all := k_rename_all s; k_bound := a;
        k_from := k_from s; k_try_from := k_try_from s; k_into := k_into s |}, e).
  Definition setk_from v (s : cslots) : cslots * list aerr :=
    let '(a, e) := set "from" v (k_from s) in
    ({| k_rename := k_rename s; k_deny := k_deny s; k_default := k_default s; k_rename_all := k_rename_all s; k_bound := k_bound s;
        k_from := a; k_try_from := k_try_from s; k_into := k_into s |}, e).
  Definition setk_try_from v (s : cslots) : cslots * list aerr :=
    let '(a, e) := set "try_from" v (k_try_from s) in
    ({| k_rename := k_rename s; k_deny := k_deny s; k_default := k_default s; k_rename_all := k_rename_all s; k_bound := k_bound s;
        k_from := k_from s; k_try_from := a; k_into := k_into s |}, e).
  Definition setk_into v (s : cslots) : cslots * list aerr :=
    let '(a, e) := set "into" v (k_into s) in
    ({| k_rename := k_rename s; k_deny := k_deny s; k_default := k_default s; k_rename_all := k_rename_all s; k_bound := k_bound s;
        k_from := k_from s; k_try_from := k_try_from s; k_into := a |}, e).

  (** attr.rs 131-290: one iteration of the loop over the items of the struct. *)
  Definition container_item (d : data) (s : cslots) (m : meta) : cslots * list aerr :=
    let named_only f s := if is_named d then f s else (s, [EDefaultPlace]) in
    match m with
    | MNameValue p v =>
        if is_ident p "rename" then with_value (get_value "rename" (fun t => Some t) v) setk_rename s
        else if is_ident p "rename_all" then with_value (get_value "rename_all" (fun t => Some t) v)
               (fun t s => match rule_from_str t with Some r => setk_rename_all r s | None => (s, [ERenameRule]) end) s
        else if is_ident p "default" then with_value (get_value "default" parse_path v) (fun q => named_only (setk_default (DPath q))) s
        else if is_ident p "bound" then with_value (get_value "bound" parse_where v) setk_bound s
        else if is_ident p "from" then with_value (get_value "from" parse_type v) setk_from s
        else if is_ident p "try_from" then with_value (get_value "try_from" parse_type v) setk_try_from s
        else if is_ident p "into" then with_value (get_value "into" parse_type v) setk_into s
        else (s, [EUnknown p])
    | MPath p =>
        if is_ident p "deny_unknown_fields" then setk_deny s
        else if is_ident p "default" then named_only (setk_default DDefault) s
        else (s, [EUnknown p])
    | MList p => (s, [EUnknown p])
    end.

  (** attr.rs 106-116 [Container] (the struct's own [rename] is parsed and thrown away). *)
  Record container := { c_deny : bool; c_default : dflt; c_rename_all : rule; c_bound : option where_;
    c_from : option type_; c_try_from : option type_; c_into : option type_ }.
  Definition container_from_ast (d : data) (attrs : list attribute) : container * list aerr :=
    let '(s, e) := over_attrs (container_item d) cslots0 attrs in
    ({| c_deny := given (k_deny s); c_default := or_else (k_default s) DNone; c_rename_all := or_else (k_rename_all s) RNone;
        c_bound := k_bound s; c_from := k_from s; c_try_from := k_try_from s; c_into := k_into s |}, e).

  (** attr.rs 547-551 [rename_by_rules]; [apply_to_field] can panic (Rename.v). *)
  Definition rename_by_rules (r : rule) (f : field) : res field :=
    if f_renamed f then Ok f
    else rbind (apply_to_field r (f_name f)) (fun n =>
      Ok {| f_name := n; f_renamed := f_renamed f; f_skip_ser := f_skip_ser f; f_skip_de := f_skip_de f; f_default := f_default f;
            f_ser := f_ser f; f_de := f_de f; f_bound := f_bound f; f_nested := f_nested f; f_flatten := f_flatten f |}).

  Fixpoint fields_from_ast (l : list (text * list attribute)) (d : dflt) : list field * list aerr :=
    match l with
    | [] => ([], [])
    | (i, a) :: l => let '(f, e) := field_from_ast i a d in let '(fs, es) := fields_from_ast l d in (f :: fs, e ++ es)
    end.

  (** ast.rs 33-69, check.rs, row.rs 94-101: what the macro goes on with, or the errors it reports.
      [RFail]: the errors become [compile_error!]s. *)
  Inductive outcome := ROk (c : container) (fs : list field) | RFail (errs : list aerr) | RPanic.
  Definition derive (attrs : list attribute) (d : data) : outcome :=
    let '(c, e1) := container_from_ast d attrs in
    match d with
    | DUnion => RFail (e1 ++ [EUnion])
    | DEnum => RFail (e1 ++ [EEnum])
    | _ =>
        let '(fs, e2) := match d with
          | DNamed l => fields_from_ast l (c_default c)
          | DTuple => ([], [ETuple])
          | _ => ([], [EUnit])
          end in
        match mapM (rename_by_rules (c_rename_all c)) fs with
        | Ok fs' =>
            let e3 := if given (c_from c) && given (c_try_from c) then [EFromAndTryFrom] else [] in
            match e1 ++ e2 ++ e3 with [] => ROk c fs' | es => RFail es end
        | _ => RPanic
        end
    end.
End Attrs.
