(** Properties C07-C10 (decoding arbitrary bytes) and C13-C15 (validation, defaults). *)
From Verif Require Import Incremental.
From Verif Require Import Base Io IoProofs Types Ser Deser ColumnSpec ColumnProofs ColumnRoundtrip LowCardProofs
  WireProofs DecodeProofs DecodeProofs2 WireSpec DecodePanics DecodeRows DecodeBounds.
From Coq Require Import Sorting.Sorted.

(* ===================== C07: row counts ===================== *)

(** Every type except LowCardinality itself: exactly the rows asked for. *)
Theorem C07_row_count : forall t, not_dict t = true ->
  forall rows inp vs rest, deser t rows inp = Ok (vs, rest) -> length vs = N.to_nat rows.
Proof. exact deser_rows. Qed.

(** LowCardinality: never more. *)
Theorem C07_never_more_rows : forall t rows inp vs rest,
  deser t rows inp = Ok (vs, rest) -> lenN vs <= rows.
Proof. exact deser_at_most. Qed.

(** ... and fewer only if the bytes hold a dictionary header announcing no dictionary at all. *)
Theorem C07_fewer_only_without_keys : forall t rows inp vs rest, deser t rows inp = Ok (vs, rest) ->
  lenN vs = rows \/ (lenN vs < rows /\ not_dict t = false /\ header_without_keys inp).
Proof. exact short_only_without_keys. Qed.

(** Finding: a dictionary header with neither flag set makes rows disappear. *)
Theorem C07_low_cardinality_refuted : exists t rows inp rest,
  validate t = true /\ deser t rows inp = Ok ([], rest) /\ rows = 2.
Proof.
  exact (ex_intro _ (TLowCard TString) (ex_intro _ 2
    (ex_intro _ ([0;0;0;0;0;0;0;0] ++ [2;0;0;0;0;0;0;0] ++ [0;0])
    (ex_intro _ [] (conj eq_refl (conj eq_refl eq_refl)))))).
Qed.

Example C07_nonvacuous : not_dict (TArray (TLowCard TString)) = true
  /\ deser (TArray (TUInt I8)) 2 (u64s [1; 3] ++ [7; 8; 9]) = Ok ([VArray [VUInt I8 7]; VArray [VUInt I8 8; VUInt I8 9]], []).
Proof. split; reflexivity. Qed.

Print Assumptions C07_row_count.
Print Assumptions C07_never_more_rows.
Print Assumptions C07_fewer_only_without_keys.
Print Assumptions C07_low_cardinality_refuted.

(* ===================== C08: panics ===================== *)

(** Valid types without offsets (no Array, Map, Ring, Polygon, MultiPolygon) never panic. *)
Theorem C08_no_panic : forall t, validate t = true -> offset_free t = true -> lengths_ok t = true ->
  forall rows inp, deser t rows inp <> Panic.
Proof. exact deser_no_panic. Qed.

(** For every valid type and all bytes: decoding panics exactly on the inputs described by
    [column_panics] (DecodePanics.v): decreasing array offsets, map offsets beyond the last
    one, or map keys or values that come up short, at any depth. *)
Theorem C08_panics_iff : forall t rows inp, validate t = true -> lengths_ok t = true -> bytes_ok inp ->
  deser t rows inp = Panic <-> column_panics t rows inp.
Proof. intros t rows inp Hv HL Hb. now apply deser_panics_iff. Qed.

(** Finding: the length of a FixedString comes from the type's name, which the server sends; one that
    no Rust vector can have panics as soon as there is a row, whatever follows. *)
Theorem C08_fixed_string_refuted : forall n rows inp, 2 ^ 63 <= n -> 0 < rows <= 2 ^ 30 ->
  validate (TFixedString n) = true /\ deser (TFixedString n) rows inp = Panic.
Proof.
  intros n rows inp Hn Hr. split; [reflexivity|]. cbn [deser]. rewrite check_rows_ok by exact (proj2 Hr).
  unfold deser_string. destruct (N.to_nat rows) as [|k] eqn:E; [lia|]. cbn [read_n]. unfold rdbind, dec_string, ISIZE_MAX.
  destruct (N.ltb_spec (2 ^ 63 - 1) n); [reflexivity|lia].
Qed.
(** Findings: decreasing array offsets, and map offsets beyond the last one. *)
Theorem C08_array_offsets_refuted : exists inp, deser (TArray (TUInt I8)) 3 inp = Panic.
Proof. exact (ex_intro _ (u64s [3; 1; 3] ++ [1; 2; 3]) eq_refl). Qed.
Theorem C08_map_offsets_refuted : exists inp, deser (TMap (TUInt I8) (TUInt I8)) 2 inp = Panic.
Proof. exact (ex_intro _ (u64s [5; 2] ++ [1; 2; 3; 4]) eq_refl). Qed.
(** ... and a map whose dictionary-encoded keys come up short (C07). *)
Theorem C08_map_keys_refuted : exists inp,
  validate (TMap (TLowCard TString) (TUInt I8)) = true /\ deser (TMap (TLowCard TString) (TUInt I8)) 1 inp = Panic.
Proof. exact (ex_intro _ (u64s [1] ++ u64s [0; 1] ++ [0]) (conj eq_refl eq_refl)). Qed.

Example C08_nonvacuous :
  let t := TTuple [TLowCard (TNullable TString); TNullable TPoint; TDateTime64 3 0] in
  validate t = true /\ offset_free t = true /\ lengths_ok t = true /\ deser t 1 [255] = Err EIo.
Proof. repeat split. Qed.

Print Assumptions C08_no_panic.
Print Assumptions C08_panics_iff.
Print Assumptions C08_fixed_string_refuted.
Print Assumptions C08_array_offsets_refuted.
Print Assumptions C08_map_offsets_refuted.
Print Assumptions C08_map_keys_refuted.

(* ===================== C09: locality and termination ===================== *)

(** What is left is a suffix; other continuations give the same values and leave
    themselves untouched. *)
Theorem C09_locality : forall t rows inp vs rest, deser t rows inp = Ok (vs, rest) ->
  exists used, inp = used ++ rest /\ forall other, deser t rows (used ++ other) = Ok (vs, other).
Proof. exact deser_local. Qed.

(** A stream cut short within the column is never accepted. *)
Theorem C09_truncation : forall t rows used rest vs p q,
  deser t rows (used ++ rest) = Ok (vs, rest) -> used = p ++ q -> q <> [] -> deser t rows p = Err EIo.
Proof. exact (fun t rows used rest vs p q => truncated_eio (deser t rows) (deser_local t rows) (deser_incremental t rows) used p q rest vs). Qed.

(** The only loop not bounded by a count ends: the fuel of the model (one more than the
    number of bytes available) is never exhausted. *)
Theorem C09_terminates : forall t rows inp, deser t rows inp <> Err EFuel.
Proof. exact deser_terminates. Qed.

Example C09_nonvacuous :
  deser (TLowCard TString) 3 ([0;2;0;0;0;0;0;0] ++ [2;0;0;0;0;0;0;0] ++ [1;97;1;98] ++ [2;0;0;0;0;0;0;0] ++ [0;1]
     ++ [0;2;0;0;0;0;0;0] ++ [1;0;0;0;0;0;0;0] ++ [1;99] ++ [1;0;0;0;0;0;0;0] ++ [0] ++ [42])
  = Ok ([VString [97]; VString [98]; VString [99]], [42]).
Proof. vm_compute. reflexivity. Qed.

Print Assumptions C09_locality.
Print Assumptions C09_truncation.
Print Assumptions C09_terminates.

(* ===================== C10: limits ===================== *)

Theorem C10_rows : forall t rows inp, 2 ^ 30 < rows -> deser t rows inp = Err EProtocol.
Proof. exact too_many_rows. Qed.
Theorem C10_array : forall t offs rest,
  offs <> [] -> lenN offs <= 2 ^ 30 -> Forall (fun o => o < 2 ^ 64) offs -> 2 ^ 30 < last offs 0 ->
  deser (TArray t) (lenN offs) (u64s offs ++ rest) = Err EProtocol.
Proof. exact too_many_elements. Qed.
Theorem C10_map : forall k v offs rest,
  offs <> [] -> lenN offs <= 2 ^ 30 -> Forall (fun o => o < 2 ^ 64) offs -> 2 ^ 30 < last offs 0 ->
  deser (TMap k v) (lenN offs) (u64s offs ++ rest) = Err EProtocol.
Proof. exact too_many_entries. Qed.
Theorem C10_dictionary : forall t rows flags n rest,
  0 < rows <= 2 ^ 30 -> flags < 2 ^ 64 -> n < 2 ^ 64 -> 2 ^ 30 < n -> flags mod 256 < 4 ->
  has_bit flags HAS_ADDITIONAL_KEYS_BIT || has_bit flags NEED_GLOBAL_DICTIONARY_BIT = true ->
  deser (TLowCard t) rows (le_bytes 8 flags ++ le_bytes 8 n ++ rest) = Err EProtocol.
Proof. exact too_many_keys. Qed.

Example C10_nonvacuous : 2 ^ 30 < last [1; 2 ^ 40] 0 /\ Forall (fun o => o < 2 ^ 64) [1; 2 ^ 40]
  /\ has_bit 514 HAS_ADDITIONAL_KEYS_BIT = true /\ 514 mod 256 < 4.
Proof. repeat split; repeat constructor. Qed.

(** So at no depth does a decoded value hold an array, map or shape with more than 2^30 members. *)
Theorem C10_nested : forall t rows inp vs rest, bytes_ok inp -> deser t rows inp = Ok (vs, rest) ->
  rows <= 2 ^ 30 /\ Forall (fun v => bounded v = true) vs.
Proof. intros t rows inp vs rest B E. split; [exact (deser_le t rows inp vs rest E)|exact (proj1 (deser_bounded t rows inp vs rest B E))]. Qed.
Example C10_nested_nonvacuous : deser (TArray (TArray (TUInt I8))) 1 (u64s [2] ++ u64s [1; 3] ++ [7; 8; 9]) = Ok ([VArray [VArray [VUInt I8 7]; VArray [VUInt I8 8; VUInt I8 9]]], [])
  /\ deser (TArray (TArray (TUInt I8))) 1 (u64s [2] ++ u64s [1; 2 ^ 30 + 1] ++ [7; 8; 9]) = Err EProtocol.
Proof. split; [vm_compute; reflexivity|lazy; reflexivity]. Qed.
Print Assumptions C10_nested.

Print Assumptions C10_rows.
Print Assumptions C10_array.
Print Assumptions C10_map.
Print Assumptions C10_dictionary.

(* ===================== C13: validated values can be sent ===================== *)

(** With the three shape conditions of ColumnSpec.v that validation forgets. *)
Theorem C13_validated : forall t vs,
  Forall (fun v => validate_value t v = Ok tt /\ representable v = true /\ shape_ok t v = true) vs ->
  fits t vs -> vs <> [] ->
  exists bs, ser t vs = Ok bs /\ forall rest, deser t (lenN vs) (bs ++ rest) = Ok (map (normal t) vs, rest).
Proof. exact validated_sends. Qed.

(** Findings: tuples of the wrong arity, maps with unequal lengths, NULL for a Nullable geo. *)
Theorem C13_tuple_too_long_refuted : exists t v,
  validate_value t v = Ok tt /\ representable v = true /\ ser t [v] = Panic.
Proof. exact (ex_intro _ (TTuple [TUInt I8]) (ex_intro _ (VTuple [VUInt I8 1; VUInt I8 2]) (conj eq_refl (conj eq_refl eq_refl)))). Qed.
Theorem C13_tuple_too_short_refuted : exists t v bs,
  validate_value t v = Ok tt /\ representable v = true /\ ser t [v] = Ok bs /\ deser t 1 bs = Err EIo.
Proof.
  exact (ex_intro _ (TTuple [TUInt I8; TUInt I8]) (ex_intro _ (VTuple [VUInt I8 1])
    (ex_intro _ [1] (conj eq_refl (conj eq_refl (conj eq_refl eq_refl)))))).
Qed.
Theorem C13_map_lengths_refuted : exists t v,
  validate_value t v = Ok tt /\ representable v = true /\ ser t [v] = Panic.
Proof. exact (ex_intro _ (TMap (TUInt I8) (TUInt I8)) (ex_intro _ (VMap [VUInt I8 1] []) (conj eq_refl (conj eq_refl eq_refl)))). Qed.
Theorem C13_nullable_geo_refuted : exists t v,
  validate_value t v = Ok tt /\ representable v = true /\ ser t [v] = Panic.
Proof. exact (ex_intro _ (TNullable TPoint) (ex_intro _ VNull (conj eq_refl (conj eq_refl eq_refl)))). Qed.

Example C13_nonvacuous :
  let t := TTuple [TNullable TString; TArray (TInt I16)] in
  let v := VTuple [VNull; VArray [VInt I16 (-3)]] in
  validate_value t v = Ok tt /\ representable v = true /\ shape_ok t v = true /\ fits t [v].
Proof. repeat split; repeat constructor; discriminate. Qed.

Print Assumptions C13_validated.
Print Assumptions C13_tuple_too_long_refuted.
Print Assumptions C13_tuple_too_short_refuted.
Print Assumptions C13_map_lengths_refuted.
Print Assumptions C13_nullable_geo_refuted.

(* ===================== C14: rejection is an error ===================== *)

(** Exactly when rejection panics: the rejected value cannot be formatted. *)
Theorem C14_rejection : forall t v, fmt_panics v = false ->
  validate_value t v = Ok tt \/ validate_value t v = Err ETypeParse.
Proof. exact rejection_is_error. Qed.
Theorem C14_panics_iff : forall t v,
  validate_value t v = Panic <-> (validate t = true /\ inner_validate t v = false /\ fmt_panics v = true).
Proof. exact validate_value_panics. Qed.
Theorem C14_rejection_refuted : exists t v, representable v = true /\ validate_value t v = Panic.
Proof. exact (ex_intro _ TString (ex_intro _ (VDecimal256 2 (zeros 32)) (conj eq_refl eq_refl))). Qed.

Example C14_nonvacuous : fmt_panics (VArray [VTuple [VInt I8 3]; VNull]) = false
  /\ validate_value TString (VArray [VTuple [VInt I8 3]; VNull]) = Err ETypeParse.
Proof. split; reflexivity. Qed.

Print Assumptions C14_rejection.
Print Assumptions C14_panics_iff.
Print Assumptions C14_rejection_refuted.

(* ===================== C15: defaults ===================== *)

(** The default of a type is accepted by it exactly when every enum involved has a
    variant numbered 0. *)
Theorem C15_default_valid_iff : forall t, inner_validate t (default_value t) = enum_zero t.
Proof. exact default_valid_iff. Qed.
(** Then it also survives the wire (a NULL for a Nullable geo type excepted, see C13). *)
Theorem C15_default_roundtrip : forall t,
  validate t = true -> lengths_ok t = true -> enum_zero t = true -> no_nullable_geo t = true ->
  exists bs, ser t [default_value t] = Ok bs /\ forall rest, deser t 1 (bs ++ rest) = Ok ([default_value t], rest).
Proof. exact default_roundtrip. Qed.
(** ... and NULL for a Nullable geo type cannot be sent at all. *)
Theorem C15_default_sendable_iff : forall t, validate t = true -> lengths_ok t = true -> enum_zero t = true ->
  (no_nullable_geo t = true -> is_ok (ser t [default_value t]) = true) /\
  (no_nullable_geo t = false -> ser t [default_value t] = Panic).
Proof.
  intros t Hv HL He. split; [|now apply default_panics].
  intros Hn. destruct (default_roundtrip t Hv HL He Hn) as (bs & -> & _). reflexivity.
Qed.
Theorem C15_enum_default_refuted : exists t, validate t = true /\ validate_value t (default_value t) = Err ETypeParse.
Proof. exact (ex_intro _ (TEnum8 [([97], 1%Z)]) (conj eq_refl eq_refl)). Qed.

Example C15_nonvacuous :
  let t := TTuple [TLowCard (TNullable TString); TEnum8 [([97], 0%Z)]; TArray TPolygon; TDecimal256 5; TFixedString 3] in
  validate t = true /\ lengths_ok t = true /\ enum_zero t = true /\ no_nullable_geo t = true.
Proof. repeat split. Qed.

Print Assumptions C15_default_valid_iff.
Print Assumptions C15_default_roundtrip.
Print Assumptions C15_default_sendable_iff.
Print Assumptions C15_enum_default_refuted.
