(** Property C44: Rust values survive conversion to SQL values, the wire, and conversion back. *)
From Verif Require Import Base Io Types Ser Deser Text Utf8 RawRow Numeric NumericSpec ColumnSpec ColumnProofs ColumnRoundtrip LowCardProofs WireProofs
  Convert ConvertSpec ConvertProofs ConvertWire ConvertSafe.

(** For every Rust type [r] made of the supported ones, every column type [t] it is stored in
    and every value the column can hold: the conversion with the column's type as hint succeeds,
    the column accepts the result, and converting back gives the original. (The column type is
    handed to the reader without its outer LowCardinality, block.rs 156.) *)
Theorem C44_roundtrip : forall r t x,
  validate t = true -> stores r (strip_low_cardinality t) = true -> member r (strip_low_cardinality t) x ->
  exists v, to_sql r x (Some t) = Ok v /\ inner_validate t v = true /\ from_sql r (strip_low_cardinality t) v = Ok x.
Proof.
  intros r t x V S M. destruct (round r _ x (Some t) (validate_strip t V) S M (hint_strip t V)) as (v & A & B & C & _).
  exists v. rewrite inner_validate_strip in B. auto.
Qed.

(** A whole column of Rust values: converted, written, read and converted back it is the same
    column, and the bytes after it are untouched. *)
Theorem C44_end_to_end : forall r t xs,
  validate t = true -> stores r (strip_low_cardinality t) = true ->
  Forall (fun x => member r (strip_low_cardinality t) x /\ survives r (strip_low_cardinality t) x) xs ->
  exists vs, mapM (fun x => to_sql r x (Some t)) xs = Ok vs /\
    (fits t vs -> exists bs, ser t vs = Ok bs /\
       forall rest, exists vs', deser t (lenN xs) (bs ++ rest) = Ok (vs', rest) /\
         mapM (from_sql r (strip_low_cardinality t)) vs' = Ok xs).
Proof.
  intros r t xs V S F.
  assert (K : exists vs, mapM (fun x => to_sql r x (Some t)) xs = Ok vs /\ Forall (fun v => inner_validate t v = true /\ good t v = true) vs /\
     mapM (from_sql r (strip_low_cardinality t)) vs = Ok xs).
  { induction F as [|x xs [M W] _ IH]; [exists []; auto|]. destruct IH as (vs & A & B & C).
    destruct (C44_roundtrip r t x V S M) as (v & A' & B' & C').
    pose proof (stays r _ x (Some t) v (validate_strip t V) S M W (hint_strip t V) A') as G. rewrite good_strip in G.
    exists (v :: vs). cbn [mapM]. rewrite A, A', C, C'. cbn [rbind]. repeat split. constructor; auto. }
  destruct K as (vs & A & B & C). exists vs. split; [exact A|]. intros Fi.
  assert (Sd : Forall (fun v => sendable t v = true) vs).
  { eapply Forall_impl; [|exact B]. intros v [I G]. apply good_iff in G as (G1 & G2 & _). unfold sendable. now rewrite G1, I, G2. }
  destruct (column_roundtrip t vs V Sd Fi) as (bs & E1 & _ & E2). exists bs. split; [exact E1|]. intros rest. exists vs.
  pose proof (mapM_ok_length _ _ _ A) as L. unfold lenN in E2 |- *. rewrite <- L, (E2 rest). split; [|exact C]. f_equal. f_equal.
  rewrite <- (map_id vs) at 2. apply map_ext_in. intros v I. pose proof (proj1 (Forall_forall _ _) B v I) as [I' G].
  apply good_iff in G as (_ & G2 & G3). now apply normal_canonical.
Qed.

(** A single-column row ([UnitValue]) reads back what it was written from. *)
Theorem C44_unit_row : forall r t x name rest,
  validate t = true -> strip_low_cardinality t = t -> stores r t = true -> member r t x ->
  exists v, unit_serialize r x ((name, t) :: rest) = Ok [([95], v)] /\ forall more, unit_deserialize r ((name, t, v) :: more) = Ok x.
Proof.
  intros r t x name rest V ST S M. destruct (C44_roundtrip r t x V) as (v & A & _ & C); try (rewrite ST; assumption). rewrite ST in C.
  exists v. unfold unit_serialize, unit_deserialize. rewrite A. auto.
Qed.

(** Reading a column value into any of the Rust types, matching or not, gives a value or an
    error, never a panic; chrono date-times are the exception (C36), and conversions of the user's that panic themselves. *)
Theorem C44_no_panic : forall r t v,
  calm r -> typed t v = true -> from_sql r (strip_low_cardinality t) v <> Panic.
Proof. intros r t v NC T. apply (safe r NC). now rewrite typed_strip. Qed.

Example C44_nonvacuous :
  let r := RMap RString (RVec (RTuple [ROpt (RLeaf (LUInt I16)); RBytes; RArr 2 (RLeaf LDate)])) in
  let t := TMap (TLowCard TString) (TArray (TTuple [TNullable (TUInt I16); TFixedString 3; TArray (TLowCard TDate)])) in
  let x := XMap [(XStr [97; 233], XList [XTuple [XOpt None; XBytes [1; 2]; XList [XLeaf (VDate 3); XLeaf (VDate 4)]];
                                        XTuple [XOpt (Some (XLeaf (VUInt I16 7))); XBytes []; XList [XLeaf (VDate 3); XLeaf (VDate 3)]]]);
                 (XStr [], XList [])] in
  validate t = true /\ stores r t = true /\ member r t x /\ survives r t x /\ calm r.
Proof.
  cbv zeta. split; [reflexivity|]. split; [reflexivity|]. split; [|split; [|cbn; tauto]].
  - cbn [member]. split.
    + cbn [map fst]. repeat constructor; cbn; intuition congruence.
    + repeat constructor.
  - cbn [survives]. repeat constructor.
Qed.
Example C44_column_nonvacuous :
  let r := ROpt RString in let t := TLowCard (TNullable TString) in
  let xs := [XOpt None; XOpt (Some (XStr [97])); XOpt (Some (XStr [97]))] in
  validate t = true /\ stores r (strip_low_cardinality t) = true /\
  Forall (fun x => member r (strip_low_cardinality t) x /\ survives r (strip_low_cardinality t) x) xs /\
  exists vs, mapM (fun x => to_sql r x (Some t)) xs = Ok vs /\ fits t vs.
Proof.
  cbv zeta. split; [reflexivity|]. split; [reflexivity|]. split; [repeat constructor|]. eexists. split; [reflexivity|].
  cbn [fits]. unfold within. split; [discriminate|]. split; [reflexivity|]. repeat constructor; discriminate.
Qed.

(** A user's own enumeration, kept in String columns under its names ([a] and [b]), inside
    containers of the crate's: the hypotheses hold, so its values come back too. *)
Definition demo_color : rty := RUser false
  (fun x _ => match x with XLeaf (VUInt I8 0) => Ok (VString [97]) | XLeaf (VUInt I8 1) => Ok (VString [98]) | _ => Err EDeser end)
  (fun t v => match t, v with TString, VString s => if text_eqb s [97] then Ok (XLeaf (VUInt I8 0)) else if text_eqb s [98] then Ok (XLeaf (VUInt I8 1)) else Err EDeser | _, _ => Err EDeser end).
Example C44_user_nonvacuous :
  let r := RVec (ROpt demo_color) in let t := TArray (TLowCard (TNullable TString)) in
  let x := XList [XOpt (Some (XLeaf (VUInt I8 1))); XOpt None; XOpt (Some (XLeaf (VUInt I8 0)))] in
  validate t = true /\ stores r t = true /\ member r t x /\ survives r t x /\
  to_sql r x (Some t) = Ok (VArray [VString [98]; VNull; VString [97]]) /\
  from_sql r t (VArray [VString [98]; VNull; VString [97]]) = Ok x /\
  from_sql r t (VArray [VString [99]]) = Err EDeser /\ calm r.
Proof.
  cbv zeta. split; [reflexivity|]. split; [reflexivity|]. split; [|split; [|split; [reflexivity|split; [reflexivity|split; [reflexivity|]]]]].
  - cbn [member]. repeat constructor; intros h _; eexists; repeat split; reflexivity.
  - cbn [survives]. repeat (constructor; [first [intros h v _ [= <-]; repeat split; reflexivity | reflexivity]|]). constructor.
  - cbn [calm demo_color]. intros t v _. destruct t; try discriminate. destruct v; try discriminate. destruct (text_eqb _ _); [discriminate|]. destruct (text_eqb _ _); discriminate.
Qed.

(** Nested options collapse: [Some(None)] comes back as [None]. *)
Theorem C44_nested_option_refuted : exists t v,
  to_sql (ROpt (ROpt (RLeaf (LUInt I8)))) (XOpt (Some (XOpt None))) (Some t) = Ok v /\ validate t = true /\ inner_validate t v = true /\
  from_sql (ROpt (ROpt (RLeaf (LUInt I8)))) t v = Ok (XOpt None).
Proof. exists (TNullable (TUInt I8)), VNull. auto. Qed.

(** [VecTuple] over LowCardinality components can be written but not read. *)
Theorem C44_vec_tuple_low_cardinality_refuted : exists t v,
  to_sql (RVecTuple RString) (XList [XStr [97]]) (Some t) = Ok v /\ validate t = true /\ inner_validate t v = true /\
  from_sql (RVecTuple RString) t v = Err EDeser.
Proof. exists (TTuple [TLowCard TString]), (VTuple [VString [97]]). auto. Qed.

(** A [Vec<u8>] is accepted by a String column but cannot be read back as [Vec<u8>]. *)
Theorem C44_byte_vector_in_string_refuted : exists x v bs,
  to_sql (RVec (RLeaf (LUInt I8))) x (Some TString) = Ok v /\ inner_validate TString v = true /\ ser TString [v] = Ok bs /\
  exists w, deser TString 1 bs = Ok ([w], []) /\ from_sql (RVec (RLeaf (LUInt I8))) TString w = Err EDeser.
Proof.
  exists (XList [XLeaf (VUInt I8 97)]), (VArray [VUInt I8 97]), [1; 97]. repeat split. exists (VString [97]). split; reflexivity.
Qed.

(** A [Vec<u8>] written with an Array(String) hint turns into a string, which that column
    rejects. *)
Theorem C44_byte_vector_in_string_array_refuted : exists x v,
  to_sql (RVec (RLeaf (LUInt I8))) x (Some (TArray TString)) = Ok v /\ inner_validate (TArray TString) v = false.
Proof. exists (XList [XLeaf (VUInt I8 97)]), (VString [97]). split; reflexivity. Qed.

(** A UInt8 is accepted as an Int8, but reading it as [i8] without a trip through a column
    panics. *)
Theorem C44_uint8_as_int8_refuted : exists v,
  validate (TInt I8) = true /\ inner_validate (TInt I8) v = true /\ from_sql (RLeaf (LInt I8)) (TInt I8) v = Panic.
Proof. exists (VUInt I8 5). auto. Qed.

Print Assumptions C44_roundtrip.
Print Assumptions C44_end_to_end.
Print Assumptions C44_unit_row.
Print Assumptions C44_no_panic.
Print Assumptions C44_nested_option_refuted.
Print Assumptions C44_vec_tuple_low_cardinality_refuted.
Print Assumptions C44_byte_vector_in_string_refuted.
Print Assumptions C44_byte_vector_in_string_array_refuted.
Print Assumptions C44_uint8_as_int8_refuted.
