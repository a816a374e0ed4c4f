(** Property C64: the attributes of [#[derive(Row)]] are applied as documented or reported. *)
From Coq Require Import String.
From Verif Require Import Base Types Text Rename Attrs AttrSpec AttrProofs.
Local Open Scope list_scope.

(** The macro accepts a declaration only if it is a struct with named fields that follows the tables
    of AttrSpec.v: every item known and well-formed, nothing said twice, not both [from] and
    [try_from].  Then struct and fields have exactly the settings written in the source, and each
    column is named by [rename] or, without it, by the field's name under the [rename_all] rule. *)
Theorem C64_accepted : forall (where_ type_ : Type) (pp : text -> option path) (pw : text -> option where_) (pt : text -> option type_)
    attrs d c fs, derive pp pw pt attrs d = ROk c fs ->
  exists l cs, d = DNamed l /\ says_struct pp pw pt attrs cs /\ no_conflict cs /\ container_has cs c /\
    Forall2 (fun f x => exists s n, says_field pp pw (snd f) s /\ named_by (c_rename_all c) (fst f) s n /\ field_has n (c_default c) s x) l fs.
Proof.
  intros where_ type_ pp pw pt attrs d c fs E. destruct (derive_only_named pp pw pt attrs d c fs E) as [l ->]. exists l.
  destruct (derive_ok pp pw pt attrs l c fs E) as (cs & H). exists cs. tauto.
Qed.

(** Conversely every such declaration is accepted. *)
Theorem C64_accepts : forall (where_ type_ : Type) (pp : text -> option path) (pw : text -> option where_) (pt : text -> option type_)
    attrs l cs, says_struct pp pw pt attrs cs -> no_conflict cs ->
  (forall r, (In (CRenameAll r) cs \/ (r = RNone /\ forall r', ~ In (CRenameAll r') cs)) -> Forall (fun f => column_name pp pw r (fst f) (snd f)) l) ->
  exists c fs, derive pp pw pt attrs (DNamed l) = ROk c fs.
Proof. exact @derive_accepts. Qed.

(** What a list of attributes says is unambiguous. *)
Theorem C64_one_meaning : forall (where_ type_ : Type) (pp : text -> option path) (pw : text -> option where_) (pt : text -> option type_) a,
  (forall l l', says_field pp pw a l -> says_field pp pw a l' -> l = l') /\
  (forall l l', says_struct pp pw pt a l -> says_struct pp pw pt a l' -> l = l').
Proof. intros. split; [apply says_field_fun|apply says_struct_fun]. Qed.

(** Only the field's own attributes and the struct's default decide about the field. *)
Theorem C64_field_reported_iff : forall (where_ : Type) (pp : text -> option path) (pw : text -> option where_) ident attrs cd,
  snd (field_from_ast pp pw ident attrs cd) = [] <->
  well_formed attrs /\ exists ll, Forall2 (freads pp pw) (items attrs) ll /\ NoDup (map fsort (concat ll)).
Proof. exact @field_accepted_iff. Qed.

(** Finding: [rename = foo] (the quotes forgotten) is neither applied nor reported. *)
Theorem C64_unquoted_value_refuted : forall (where_ type_ : Type) (pp : text -> option path) (pw : text -> option where_) (pt : text -> option type_),
  exists c f, derive pp pw pt [] (DNamed [(txt "bar", [AItems [MNameValue [txt "rename"] VExpr]])]) = ROk c [f] /\
    f_name f = txt "bar" /\ f_renamed f = false.
Proof. intros. eexists. eexists. split; [vm_compute; reflexivity|]. split; reflexivity. Qed.
(** Finding: [rename] on the struct is accepted and changes nothing. *)
Theorem C64_struct_rename_refuted : forall (where_ type_ : Type) (pp : text -> option path) (pw : text -> option where_) (pt : text -> option type_) s l,
  derive pp pw pt [AItems [MNameValue [txt "rename"] (VStr s)]] (DNamed l) = derive pp pw pt [] (DNamed l).
Proof. reflexivity. Qed.
(** Finding: [skip] together with [skip_serializing] is reported as a duplicate, although it says the
    same thing twice; and [camelCase] panics the macro on a name it cannot convert. *)
Theorem C64_skip_twice_refuted : forall (where_ type_ : Type) (pp : text -> option path) (pw : text -> option where_) (pt : text -> option type_) n,
  derive pp pw pt [] (DNamed [(n, [AItems [MPath [txt "skip"]; MPath [txt "skip_serializing"]]])]) = RFail [EDuplicate "skip_serializing"].
Proof. reflexivity. Qed.
Theorem C64_camel_case_refuted : forall (where_ type_ : Type) (pp : text -> option path) (pw : text -> option where_) (pt : text -> option type_),
  derive pp pw pt [AItems [MNameValue [txt "rename_all"] (VStr (txt "camelCase"))]] (DNamed [(txt "_", [])]) = RPanic.
Proof. reflexivity. Qed.

(** A struct with [rename_all], [rename], [with], [skip_deserializing] and a raw identifier. *)
Definition demo_derive := derive (fun t => Some [t]) (fun t : text => Some t) (fun t : text => Some t)
  [AOther; AItems [MNameValue [txt "rename_all"] (VStr (txt "PascalCase"))]]
  (DNamed [(txt "r#type", []); (txt "user_id", [AItems [MNameValue [txt "with"] (VStr (txt "m"))]]);
           (txt "x", [AItems [MPath [txt "skip_deserializing"]]; AItems [MNameValue [txt "rename"] (VStr (txt "y"))]])]).
Example C64_nonvacuous : exists c f1 f2 f3, demo_derive = ROk c [f1; f2; f3] /\
  f_name f1 = txt "Type" /\ f_name f2 = txt "UserId" /\ f_ser f2 = Some [txt "m"; txt "to_sql"] /\ f_de f2 = Some [txt "m"; txt "from_sql"] /\
  f_name f3 = txt "y" /\ f_default f3 = DDefault /\ f_default f1 = DNone /\ f_skip_ser f3 = false /\
  derive (fun t => Some [t]) (fun t : text => Some t) (fun t : text => Some t) [] (DNamed [(txt "a", [AItems [MPath [txt "flaten"]]])]) = RFail [EUnknown [txt "flaten"]].
Proof. do 4 eexists. split; [vm_compute; reflexivity|]. vm_compute. repeat split. Qed.

Print Assumptions C64_accepted.
Print Assumptions C64_accepts.
Print Assumptions C64_one_meaning.
Print Assumptions C64_field_reported_iff.
Print Assumptions C64_unquoted_value_refuted.
Print Assumptions C64_struct_rename_refuted.
Print Assumptions C64_skip_twice_refuted.
Print Assumptions C64_camel_case_refuted.
