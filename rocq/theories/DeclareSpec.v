(** What a declared struct stands for, in terms of what its attributes say (AttrSpec.v). *)
From Coq Require Import String.
From Verif Require Import Base Types Text Rename RawRow Numeric Convert Migrate Attrs AttrSpec Derive Declare.
Local Open Scope list_scope.
Local Open Scope N_scope.

Section Spec.
  Context {where_ type_ : Type} (parse_path : text -> option path)
          (parse_where : text -> option where_) (parse_type : text -> option type_) (u : funs).
  Notation says_s := (says_struct parse_path parse_where parse_type).
  Notation says_f := (says_field parse_path parse_where).

  (** The rule of the struct, the column name of a field. *)
  Definition struct_rule (cs : list (@csetting where_ type_)) (r : rule) : Prop :=
    In (CRenameAll r) cs \/ ((forall r', ~ In (CRenameAll r') cs) /\ r = RNone).
  Definition field_named (r : rule) (ident : text) (l : list (@fsetting where_)) (n : text) : Prop :=
    In (FRename n) l \/ ((forall t, ~ In (FRename t) l) /\ apply_to_field r (unraw ident) = Ok n).

  (** The columns of a struct, in order: none for a field that is not written, the field's name for a
      plain one, the inner columns behind [name.] for a nested one, the inner columns for a flattened one. *)
  Inductive struct_columns : list attribute -> list (fhead * ftype) -> list text -> Prop :=
  | sc_struct a ds cs r nss : says_s a cs -> struct_rule cs r -> Forall2 (field_columns r) ds nss -> struct_columns a ds (concat nss)
  with field_columns : rule -> fhead * ftype -> list text -> Prop :=
  | fc_skipped r h t l : says_f (h_attrs h) l -> In FSkipSer l -> field_columns r (h, t) []
  | fc_plain r h rt l n : says_f (h_attrs h) l -> ~ In FSkipSer l -> ~ In FNested l -> ~ In FFlatten l ->
      field_named r (h_ident h) l n -> field_columns r (h, FPlain rt) [n]
  | fc_nested r h a std ds l n inner : says_f (h_attrs h) l -> ~ In FSkipSer l -> In FNested l ->
      field_named r (h_ident h) l n -> struct_columns a ds inner -> field_columns r (h, FVec a std ds) (map (fun c => n ++ [46] ++ c) inner)
  | fc_flattened r h a std ds l inner : says_f (h_attrs h) l -> ~ In FSkipSer l -> In FFlatten l ->
      struct_columns a ds inner -> field_columns r (h, FRow a std ds) inner.

  (** The value of field number [j] when it is not read: its own default, else the struct's, else (if it is
      never read) its type's, else none. *)
  Inductive default_of (cs : list (@csetting where_ type_)) (std : option (list sval)) (j : nat) (h : fhead) (l : list (@fsetting where_)) : option sval -> Prop :=
  | do_own d : In (FDefault DDefault) l -> h_std h = Some d -> default_of cs std j h l (Some d)
  | do_function p : In (FDefault (DPath p)) l -> default_of cs std j h l (Some (u_default u p))
  | do_struct vs d : (forall d, ~ In (FDefault d) l) -> In (CDefault DDefault) cs -> std = Some vs -> nth_error vs j = Some d -> default_of cs std j h l (Some d)
  | do_struct_function p d : (forall d, ~ In (FDefault d) l) -> In (CDefault (DPath p)) cs -> nth_error (u_struct u p) j = Some d -> default_of cs std j h l (Some d)
  | do_skipped d : (forall d, ~ In (FDefault d) l) -> (forall d, ~ In (CDefault d) cs) -> In FSkipDe l -> h_std h = Some d -> default_of cs std j h l (Some d)
  | do_none : (forall d, ~ In (FDefault d) l) -> (forall d, ~ In (CDefault d) cs) -> ~ In FSkipDe l -> default_of cs std j h l None.

  (** How a plain field is written and read: by the function given, else by its type. *)
  Inductive writes_as (r : rty) (l : list (@fsetting where_)) (x : rval) (hint : option ty) : res value -> Prop :=
  | wa_function p : In (FSer p) l -> writes_as r l x hint (u_ser u p x)
  | wa_type : (forall p, ~ In (FSer p) l) -> writes_as r l x hint (to_sql r x hint).
  Inductive reads_as (r : rty) (l : list (@fsetting where_)) (t : ty) (v : value) : res rval -> Prop :=
  | ra_function p : In (FDe p) l -> reads_as r l t v (u_de u p t v)
  | ra_type : (forall p, ~ In (FDe p) l) -> reads_as r l t v (from_sql r t v).

  (** All fields of plain types. *)
  Definition plain_fields (ds : list (fhead * ftype)) : Prop := Forall (fun d => exists r, snd d = FPlain r) ds.

  (** What is written for a plain field of value [x]. *)
  Inductive field_written (hints : text -> option ty) (r : rule) : fhead * ftype -> sval -> list (text * value) -> Prop :=
  | fw_skipped h t l x : says_f (h_attrs h) l -> In FSkipSer l -> field_written hints r (h, t) x []
  | fw_sent h rt l n x v : says_f (h_attrs h) l -> ~ In FSkipSer l -> field_named r (h_ident h) l n ->
      writes_as rt l x (hints n) (Ok v) -> field_written hints r (h, FPlain rt) (SPlain x) [(n, v)].

  (** What plain field number [j] is when the columns [cols] are read: its default if it is skipped, what its
      column converts to, or its default if there is no such column. *)
  Inductive field_read (cs : list (@csetting where_ type_)) (r : rule) (std : option (list sval)) (j : nat) (cols : list (text * ty * value)) : fhead * ftype -> sval -> Prop :=
  | fr_skipped h t l x : says_f (h_attrs h) l -> In FSkipDe l -> default_of cs std j h l (Some x) -> field_read cs r std j cols (h, t) x
  | fr_column h rt l n t v y : says_f (h_attrs h) l -> ~ In FSkipDe l -> field_named r (h_ident h) l n -> In (n, t, v) cols ->
      reads_as rt l (strip_low_cardinality t) v (Ok y) -> field_read cs r std j cols (h, FPlain rt) (SPlain y)
  | fr_absent h t l n x : says_f (h_attrs h) l -> ~ In FSkipDe l -> field_named r (h_ident h) l n -> ~ In n (map cname cols) ->
      default_of cs std j h l (Some x) -> field_read cs r std j cols (h, t) x.

  (** No two fields that are read have the same column. *)
  Definition distinct_names (r : rule) (ds : list (fhead * ftype)) : Prop :=
    forall i j h h' t t' l l' n, nth_error ds i = Some (h, t) -> nth_error ds j = Some (h', t') ->
      says_f (h_attrs h) l -> says_f (h_attrs h') l' -> ~ In FSkipDe l -> ~ In FSkipDe l' ->
      field_named r (h_ident h) l n -> field_named r (h_ident h') l' n -> i = j.
  (** A column that is some read field's. *)
  Definition belongs (r : rule) (ds : list (fhead * ftype)) (n : text) : Prop :=
    exists h t l, In (h, t) ds /\ says_f (h_attrs h) l /\ ~ In FSkipDe l /\ field_named r (h_ident h) l n.

  (** A declaration that makes sense: [nested] on a [Vec] of a row struct whose name is an identifier, [flatten]
      on a row struct, neither on other types; no [deny_unknown_fields], [from], [try_from], [into]; values for all
      the defaults asked for. *)
  Definition plain_struct (cs : list (@csetting where_ type_)) : Prop :=
    ~ In CDeny cs /\ forall t, ~ In (CFrom t) cs /\ ~ In (CTryFrom t) cs /\ ~ In (CInto t) cs.
  Inductive good_struct : list attribute -> option (list sval) -> list (fhead * ftype) -> Prop :=
  | gs_struct a std ds cs r : says_s a cs -> plain_struct cs -> struct_rule cs r ->
      (In (CDefault DDefault) cs -> exists vs, std = Some vs /\ List.length vs = List.length ds) ->
      (forall p, In (CDefault (DPath p)) cs -> List.length (u_struct u p) = List.length ds) ->
      Forall (good_field r cs) ds -> good_struct a std ds
  with good_field : rule -> list (@csetting where_ type_) -> fhead * ftype -> Prop :=
  | gf_field r cs h t l n : says_f (h_attrs h) l -> field_named r (h_ident h) l n ->
      (In (FDefault DDefault) l \/ (In FSkipDe l /\ (forall d, ~ In (FDefault d) l) /\ (forall d, ~ In (CDefault d) cs)) -> exists d, h_std h = Some d) ->
      good_type l n t -> good_field r cs (h, t)
  with good_type : list (@fsetting where_) -> text -> ftype -> Prop :=
  | gt_plain l n rt : ~ In FNested l -> ~ In FFlatten l -> good_type l n (FPlain rt)
  | gt_nested l n a std ds : In FNested l -> ~ In FFlatten l -> (forall p, ~ In (FSer p) l /\ ~ In (FDe p) l) -> u_nameable u n = true ->
      good_struct a std ds -> good_type l n (FVec a std ds)
  | gt_flatten l n a std ds : In FFlatten l -> ~ In FNested l -> (forall p, ~ In (FSer p) l /\ ~ In (FDe p) l) ->
      good_struct a std ds -> good_type l n (FRow a std ds).
End Spec.
