(** C74: an error from reading a row says what is wrong with it. *)
From Coq Require Import String Permutation.
From Verif Require Import Base Types Utf8 Text RawRow Numeric Convert ConvertSpec ConvertSafe Migrate Derive DeriveSpec DeriveProofs4 DeriveSafe DeriveErrors Text Props_Derive.
Local Open Scope list_scope.
Local Open Scope N_scope.

(** Structs of plain fields: the error names a field, and what it says about that field is so. *)
Theorem C74_plain_errors : forall fs cols e, all_plain fs -> deserialize fs cols = Err e -> plain_blame fs cols e.
Proof. exact deserialize_plain_blame. Qed.
Print Assumptions C74_plain_errors.

(** Together with C43: on columns as the decoder delivers them such a struct is read or the culprit is named. *)
Theorem C74_plain_outcome : forall fs cols, all_plain fs ->
  Forall (fun f => forall r, snd f = KPlain r -> calm r) fs ->
  Forall (fun c => typed (snd (fst c)) (snd c) = true) cols ->
  (exists xs, deserialize fs cols = Ok xs) \/ (exists e, deserialize fs cols = Err e /\ plain_blame fs cols e).
Proof.
  intros fs cols P NC T. pose proof (deserialize_plain_no_panic fs cols P NC T) as N.
  destruct (deserialize fs cols) as [xs|e|] eqn:D; [eauto| |congruence]. right. exists e. split; [reflexivity|]. now apply deserialize_plain_blame.
Qed.
Print Assumptions C74_plain_outcome.

(** All structs, nested and flattened ones included: these are the errors there are, and the names in them are
    those of declared fields or of received columns. *)
Theorem C74_errors : forall fs cols e, built_in fs = true -> deserialize fs cols = Err e -> names_culprit fs cols e.
Proof. exact deserialize_culprit. Qed.
Print Assumptions C74_errors.

(** Together with C43: on columns as the decoder delivers them a struct declared with care is read or explained. *)
Theorem C74_outcome : forall fs cols, steady fs -> built_in fs = true ->
  Forall (fun c => typed (snd (fst c)) (snd c) = true) cols ->
  (exists xs, deserialize fs cols = Ok xs) \/ (exists e, deserialize fs cols = Err e /\ names_culprit fs cols e).
Proof.
  intros fs cols S B T. pose proof (deserialize_steady fs cols S T) as N.
  destruct (deserialize fs cols) as [xs|e|] eqn:D; [eauto| |congruence]. right. exists e. split; [reflexivity|]. now apply deserialize_culprit.
Qed.
Print Assumptions C74_outcome.

(** A value that does not convert is a deserialization error (then the column is added) or invalid UTF-8. *)
Theorem C74_conversion_errors : forall r t v e, no_user r = true -> from_sql r t v = Err e -> e = EDeser \/ e = EUtf8.
Proof. intros r t v e N. exact (from_sql_err r N t v e). Qed.
Print Assumptions C74_conversion_errors.

(** Invalid UTF-8 in a String column is reported without the name of the column, whatever the field. *)
Theorem C74_utf8_refuted : forall i t bs cols, i_skip_de i = false -> t = TString \/ (exists n, t = TFixedString n) -> utf8_decode bs = None ->
  deserialize [(i, KPlain RString)] ((i_name i, t, VString bs) :: cols) = Err EUtf8.
Proof.
  intros i t bs cols S T U. assert (D : dest [(i, KPlain RString)] 0 (i_name i) = Some (0%nat, true)).
  { unfold dest, find_name, named, inactive. cbn [fst snd is_flatten]. rewrite S. cbn [orb negb andb].
    now rewrite text_eqb_refl. }
  unfold deserialize, kind_deserialize, gather. cbn [forallb size_known snd orb pull_flatten rbind fst]. unfold size_known, inactive. cbn [fst snd is_flatten]. rewrite S. cbn [orb andb rbind fst snd match_keys cname].
  rewrite D. cbn [nth_error map]. unfold acc0, inactive. cbn [fst snd is_flatten]. rewrite S. cbn [orb put_column snd fst].
  destruct T as [-> | [n ->]]; unfold field_from, by_attribute; cbn [strip_low_cardinality from_sql rstring_from]; rewrite U; reflexivity.
Qed.
Print Assumptions C74_utf8_refuted.

(** ** Examples *)
Definition bl_fields : fields := [(ex_info [97], KPlain u8); (ex_info [98], KPlain RString)].
Example C74_nonvacuous :
  all_plain bl_fields /\
  deserialize bl_fields [([97], TUInt I8, VUInt I8 1); ([98], TString, VString [104])] = Ok [s8 1; SPlain (XStr [104])] /\
  deserialize bl_fields [([97], TUInt I8, VUInt I8 1); ([98], TUInt I8, VUInt I8 2)] = Err (EDeserColumn [98]) /\
  deserialize bl_fields [([97], TUInt I8, VUInt I8 1)] = Err (EMissingField [98]) /\
  deserialize bl_fields [([98], TString, VString []); ([120], TString, VString [])] = Err (EDuplicateField [98]) /\
  deserialize bl_fields [([98], TString, VString [255])] = Err EUtf8.
Proof. split; [repeat constructor; eexists; reflexivity|]. repeat split; vm_compute; reflexivity. Qed.
Example C74_nested_nonvacuous :
  deserialize ex_fields [([98], TString, VString []); ([108; 46; 99], TUInt I8, VUInt I8 1)] = Err (EUnexpectedTypeWithColumn [108; 46; 99]) /\
  deserialize ex_fields [([98], TString, VString []); ([108; 46; 99], TArray (TUInt I8), VArray []); ([108; 46; 100], TArray (TUInt I8), VArray [VUInt I8 1])] = Err EDeser /\
  deserialize ex_fields [([98], TString, VString []); ([108; 46; 99], TArray (TUInt I8), VArray [VUInt I8 1])] = Err (EMissingField [100]) /\
  deserialize ex_fields [([97], TUInt I8, VUInt I8 1)] = Err EFlattenedMissing /\
  In [100] (declared ex_fields).
Proof. repeat split; try (vm_compute; reflexivity). vm_compute. tauto. Qed.
