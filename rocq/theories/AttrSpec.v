(** What the attributes of the derive macro mean, as tables independent of how they are parsed. *)
From Coq Require Import String.
From Verif Require Import Base Types Text Rename Attrs.
Local Open Scope list_scope.

Section Spec.
  Context {where_ type_ : Type} (parse_path : text -> option path)
          (parse_where : text -> option where_) (parse_type : text -> option type_).

  (** The settings of a field. *)
  Inductive fsetting := FRename (t : text) | FNested | FFlatten | FSkipSer | FSkipDe | FDefault (d : dflt)
    | FSer (p : path) | FDe (p : path) | FBound (w : where_).
  (** Two settings of the same sort cannot both be given. *)
  Definition fsort (s : fsetting) : nat :=
    match s with FRename _ => 0 | FNested => 1 | FFlatten => 2 | FSkipSer => 3 | FSkipDe => 4 | FDefault _ => 5 | FSer _ => 6 | FDe _ => 7 | FBound _ => 8 end.

  (** The documented items, and the settings each one stands for. *)
  Inductive fmeans : meta -> list fsetting -> Prop :=
  | fm_rename s : fmeans (MNameValue [txt "rename"] (VStr s)) [FRename s]
  | fm_default : fmeans (MPath [txt "default"]) [FDefault DDefault]
  | fm_default_path s q : parse_path s = Some q -> fmeans (MNameValue [txt "default"] (VStr s)) [FDefault (DPath q)]
  | fm_nested : fmeans (MPath [txt "nested"]) [FNested]
  | fm_flatten : fmeans (MPath [txt "flatten"]) [FFlatten]
  | fm_skip_ser : fmeans (MPath [txt "skip_serializing"]) [FSkipSer]
  | fm_skip_de : fmeans (MPath [txt "skip_deserializing"]) [FSkipDe]
  | fm_skip : fmeans (MPath [txt "skip"]) [FSkipSer; FSkipDe]
  | fm_ser s q : parse_path s = Some q -> fmeans (MNameValue [txt "serialize_with"] (VStr s)) [FSer q]
  | fm_de s q : parse_path s = Some q -> fmeans (MNameValue [txt "deserialize_with"] (VStr s)) [FDe q]
  | fm_with s q : parse_path s = Some q ->
      fmeans (MNameValue [txt "with"] (VStr s)) [FSer (q ++ [txt "to_sql"]); FDe (q ++ [txt "from_sql"])]
  | fm_bound s w : parse_where s = Some w -> fmeans (MNameValue [txt "bound"] (VStr s)) [FBound w].

  (** Names that take a value. *)
  Definition fvalued : list string := ["rename"; "default"; "serialize_with"; "deserialize_with"; "with"; "bound"]%string.
  (** Such a name with a value that is not a literal: not an error, and without effect. *)
  Definition fignored (m : meta) : Prop := exists n, In n fvalued /\ m = MNameValue [txt n] VExpr.
  Definition freads (m : meta) (l : list fsetting) : Prop := fmeans m l \/ (fignored m /\ l = []).

  (** The field has these settings and no others; [name] is its name if it is not renamed, [cd] the
      default given on the struct. *)
  Record field_has (name : text) (cd : dflt) (l : list fsetting) (f : @field where_) : Prop := {
    fh_rename : forall t, In (FRename t) l -> f_name f = t;
    fh_name : (forall t, ~ In (FRename t) l) -> f_name f = name;
    fh_renamed : f_renamed f = true <-> exists t, In (FRename t) l;
    fh_nested : f_nested f = true <-> In FNested l;
    fh_flatten : f_flatten f = true <-> In FFlatten l;
    fh_skip_ser : f_skip_ser f = true <-> In FSkipSer l;
    fh_skip_de : f_skip_de f = true <-> In FSkipDe l;
    fh_default : forall d, In (FDefault d) l -> f_default f = d;
    fh_no_default : (forall d, ~ In (FDefault d) l) ->
      f_default f = match cd with DNone => if f_skip_de f then DDefault else DNone | _ => DNone end;
    fh_ser : forall p, f_ser f = Some p <-> In (FSer p) l;
    fh_de : forall p, f_de f = Some p <-> In (FDe p) l;
    fh_bound : forall w, f_bound f = Some w <-> In (FBound w) l }.

  (** The settings of a struct. *)
  Inductive csetting := CRename (t : text) | CDeny | CDefault (d : dflt) | CRenameAll (r : rule) | CBound (w : where_)
    | CFrom (t : type_) | CTryFrom (t : type_) | CInto (t : type_).
  Definition csort (s : csetting) : nat :=
    match s with CRename _ => 0 | CDeny => 1 | CDefault _ => 2 | CRenameAll _ => 3 | CBound _ => 4 | CFrom _ => 5 | CTryFrom _ => 6 | CInto _ => 7 end.
  Inductive cmeans : meta -> list csetting -> Prop :=
  | cm_rename s : cmeans (MNameValue [txt "rename"] (VStr s)) [CRename s]
  | cm_rename_all s r : rule_from_str s = Some r -> cmeans (MNameValue [txt "rename_all"] (VStr s)) [CRenameAll r]
  | cm_deny : cmeans (MPath [txt "deny_unknown_fields"]) [CDeny]
  | cm_default : cmeans (MPath [txt "default"]) [CDefault DDefault]
  | cm_default_path s q : parse_path s = Some q -> cmeans (MNameValue [txt "default"] (VStr s)) [CDefault (DPath q)]
  | cm_bound s w : parse_where s = Some w -> cmeans (MNameValue [txt "bound"] (VStr s)) [CBound w]
  | cm_from s t : parse_type s = Some t -> cmeans (MNameValue [txt "from"] (VStr s)) [CFrom t]
  | cm_try_from s t : parse_type s = Some t -> cmeans (MNameValue [txt "try_from"] (VStr s)) [CTryFrom t]
  | cm_into s t : parse_type s = Some t -> cmeans (MNameValue [txt "into"] (VStr s)) [CInto t].
  Definition cvalued : list string := ["rename"; "rename_all"; "default"; "bound"; "from"; "try_from"; "into"]%string.
  Definition cignored (m : meta) : Prop := exists n, In n cvalued /\ m = MNameValue [txt n] VExpr.
  Definition creads (m : meta) (l : list csetting) : Prop := cmeans m l \/ (cignored m /\ l = []).

  Record container_has (l : list csetting) (c : @container where_ type_) : Prop := {
    ch_deny : c_deny c = true <-> In CDeny l;
    ch_default : forall d, In (CDefault d) l -> c_default c = d;
    ch_no_default : (forall d, ~ In (CDefault d) l) -> c_default c = DNone;
    ch_rename_all : forall r, In (CRenameAll r) l -> c_rename_all c = r;
    ch_no_rename_all : (forall r, ~ In (CRenameAll r) l) -> c_rename_all c = RNone;
    ch_bound : forall w, c_bound c = Some w <-> In (CBound w) l;
    ch_from : forall t, c_from c = Some t <-> In (CFrom t) l;
    ch_try_from : forall t, c_try_from c = Some t <-> In (CTryFrom t) l;
    ch_into : forall t, c_into c = Some t <-> In (CInto t) l }.

  (** The items of all [#[klickhouse(..)]] attributes, in order. *)
  Definition items (l : list attribute) : list meta := flat_map (fun a => match a with AItems i => i | _ => [] end) l.
  Definition well_formed (l : list attribute) : Prop := ~ In ABad l.
  (** A declaration that follows the documentation, with what it says. *)
  Definition says_struct (attrs : list attribute) (cs : list csetting) : Prop :=
    well_formed attrs /\ NoDup (map csort cs) /\ exists ll, Forall2 creads (items attrs) ll /\ cs = concat ll.
  Definition says_field (attrs : list attribute) (fs : list fsetting) : Prop :=
    well_formed attrs /\ NoDup (map fsort fs) /\ exists ll, Forall2 freads (items attrs) ll /\ fs = concat ll.

  (** The column name of a field: what [rename] says, or the field's name under the struct's rule. *)
  Definition named_by (r : rule) (ident : text) (s : list fsetting) (n : text) : Prop :=
    (forall t, ~ In (FRename t) s) -> apply_to_field r (unraw ident) = Ok n.
  Definition column_name (r : rule) (ident : text) (a : list attribute) : Prop :=
    exists s n, says_field a s /\ named_by r ident s n.

  (** [from] and [try_from] exclude each other. *)
  Definition no_conflict (cs : list csetting) : Prop := forall t u, ~ (In (CFrom t) cs /\ In (CTryFrom u) cs).
End Spec.
