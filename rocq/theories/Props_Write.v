(** C96: what a derived struct is written as.  The rules are in WriteSpec.v. *)
From Coq Require Import String.
From Verif Require Import Base Types Text RawRow Numeric Convert ConvertSpec Migrate Derive NestedSpec NestedProofs WriteSpec WriteProofs Props_Derive.
Local Open Scope list_scope.
Local Open Scope N_scope.

(** What [serialize_row] returns is exactly what the rules say, for every struct in which nested structs contain no flattened field. *)
Theorem C96_exactly : forall hints fs xs cs, settled fs = true -> (serialize hints fs xs = Ok cs <-> writes hints fs xs cs).
Proof. intros hints fs xs cs S. exact (serialize_exactly hints fs xs S cs). Qed.
Print Assumptions C96_exactly.
(** Its columns are those of [column_names], in that order, whatever the value (nested fields without rows included). *)
Theorem C96_names : forall hints fs xs cs, settled fs = true -> serialize hints fs xs = Ok cs -> map fst cs = column_names fs.
Proof. intros hints fs xs cs S H. apply (writes_names hints fs xs cs S). now apply serialize_exactly. Qed.
Print Assumptions C96_names.
(** It succeeds if every conversion does, *)
Theorem C96_succeeds : forall hints fs xs, settled fs = true -> value_of fs xs ->
  forallb is_ok (conversions hints fs xs) = true -> exists cs, serialize hints fs xs = Ok cs.
Proof.
  intros hints fs xs S V A. pose proof (outcome_all _ _ (serialize_outcome hints fs xs S V) A) as O.
  destruct (serialize hints fs xs) as [cs| |]; [eauto|discriminate..].
Qed.
Print Assumptions C96_succeeds.
(** and fails as the first conversion that does not, in the order of the fields, and of the rows inside a nested field. *)
Theorem C96_first_failure : forall hints fs xs before c after, settled fs = true -> value_of fs xs ->
  conversions hints fs xs = before ++ c :: after -> forallb is_ok before = true -> is_ok c = false ->
  failed_as c (serialize hints fs xs).
Proof.
  intros hints fs xs before c after S V E B C. pose proof (serialize_outcome hints fs xs S V) as O. rewrite E in O. exact (outcome_first before c after _ O B C).
Qed.
Print Assumptions C96_first_failure.
(** Without that condition it panics: a nested field (that is written) whose struct has a flattened field, with or without rows. *)
Theorem C96_flattened_in_nested_refuted : forall hints i inner rows fs xs,
  i_skip_ser i = false -> (exists j k, In (j, KFlatten k) inner) -> serialize hints ((i, KNested inner) :: fs) (SVec rows :: xs) = Panic.
Proof.
  intros hints i inner rows fs xs Sk (j & k & H). cbn [serialize]. rewrite Sk. rewrite nested_flatten_panics; [reflexivity|].
  apply existsb_exists. exists (j, KFlatten k). now split.
Qed.
Print Assumptions C96_flattened_in_nested_refuted.

(** A plain, a flattened, a nested and a skipped field; two rows, then none. *)
Example C96_nonvacuous :
  settled ex_fields = true /\ value_of ex_fields ex_value /\
  writes ex_hints ex_fields ex_value
    [([97], VUInt I8 1); ([98], VString [104; 105]); ([108; 46; 99], VArray [VUInt I8 3; VUInt I8 3]); ([108; 46; 100], VArray [VNull; VUInt I8 4])] /\
  writes ex_hints ex_fields [s8 1; SSub [SPlain (XStr [])]; SVec []; s8 0]
    [([97], VUInt I8 1); ([98], VString []); ([108; 46; 99], VArray []); ([108; 46; 100], VArray [])] /\
  List.length (conversions ex_hints ex_fields ex_value) = 6%nat /\ forallb is_ok (conversions ex_hints ex_fields ex_value) = true.
Proof.
  assert (S : settled ex_fields = true) by reflexivity. split; [exact S|]. split.
  { unfold value_of, ex_fields, ex_value. cbn [all2 kind_shape snd]. repeat first [exact I | apply Forall_cons | apply Forall_nil | split]. }
  split; [apply C96_exactly; [exact S|]; vm_compute; reflexivity|]. split; [apply C96_exactly; [exact S|]; vm_compute; reflexivity|].
  split; vm_compute; reflexivity.
Qed.
(** The first of two fields that cannot be converted: a function given as [serialize_with] that fails. *)
Definition ex_failing (e : err) : rty := RUser true (fun _ _ => Err e) (fun _ _ => Err e).
Example C96_failure_nonvacuous :
  let fs := [(ex_info [97], KPlain u8); (ex_info [108], KNested [(ex_info [99], KPlain u8); (ex_info [100], KPlain (ex_failing ESer))]); (ex_info [98], KPlain (ex_failing EDeser))] in
  let xs := [s8 1; SVec [[s8 2; s8 3]; [s8 4; s8 5]]; s8 6] in
  settled fs = true /\ value_of fs xs /\
  (exists after, conversions (fun _ => None) fs xs = [Ok (VUInt I8 1); Ok (VUInt I8 2)] ++ Err ESer :: after) /\
  serialize (fun _ => None) fs xs = Err ESer /\
  serialize (fun _ => None) fs [s8 1; SVec []; s8 6] = Err EDeser.
Proof.
  cbv zeta. split; [reflexivity|]. split.
  { unfold value_of. cbn [all2 kind_shape snd]. repeat first [exact I | apply Forall_cons | apply Forall_nil | split]. }
  split; [eexists; reflexivity|]. split; reflexivity.
Qed.
Example C96_flattened_in_nested_nonvacuous :
  serialize (fun _ => None) [(ex_info [108], KNested [(ex_info [112], KFlatten [(ex_info [99], KPlain u8)])])] [SVec []] = Panic /\
  forallb is_ok (conversions (fun _ => None) [(ex_info [108], KNested [(ex_info [112], KFlatten [(ex_info [99], KPlain u8)])])] [SVec []]) = true.
Proof. split; reflexivity. Qed.
