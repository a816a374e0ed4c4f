(** Properties C45 (equality and hashing), C59 (type inference), C60 (decoded values are of
    their column's type). *)
From Verif Require Import Base Io Types Ser Deser RawRow ColumnSpec Hashing HashingProofs HashInjective LowCardProofs Convert ConvertSpec GuessProofs DecodeTyped ConvertSafe DecodeProofs2.

(* ---------------- C45 ---------------- *)

(** Equality is symmetric and transitive on all values. *)
Theorem C45_symmetric : forall a b, value_eqb a b = true -> value_eqb b a = true.
Proof. intros a b H. now rewrite value_eqb_sym. Qed.
Theorem C45_transitive : forall a b c, value_eqb a b = true -> value_eqb b c = true -> value_eqb a c = true.
Proof. exact value_eqb_trans. Qed.

(** A value equals itself exactly if none of its geo coordinates is NaN. *)
Theorem C45_reflexive_iff : forall v, value_eqb v v = true <-> Forall (fun b => f64_nan b = false) (coordinates v).
Proof.
  intros v. rewrite (refl_value v). unfold clean. rewrite forallb_forall, Forall_forall.
  split; intros H b I; specialize (H b I); [now apply negb_true_iff|now rewrite H].
Qed.

(** Equal values are fed alike to every hasher exactly if their coordinates have the same bits
    (the two zeros are equal and differ in bits). *)
Theorem C45_hash_iff : forall a b, value_eqb a b = true ->
  (hash_value a = hash_value b <-> coordinates a = coordinates b).
Proof. intros a b E. apply (agree_value a b E). Qed.

(** Hence on values without geo parts equality is an equivalence, coincides with identity and is
    compatible with hashing: dictionaries of such keys are sound. *)
Theorem C45_no_geo : forall a b, no_geo a = true ->
  value_eqb a a = true /\ (value_eqb a b = true <-> a = b) /\ (value_eqb a b = true -> hash_value a = hash_value b).
Proof.
  intros a b G. split; [now apply value_eqb_refl|].
  assert (K : value_eqb a b = true -> a = b) by now apply value_eqb_eq.
  split; [split; [exact K|intros <-; now apply value_eqb_refl]|]. intros E. now rewrite (K E).
Qed.

(** The calls a value makes on the hasher tell it apart from every other value: only values that are
    the same, bit for bit, are hashed alike by construction. *)
Theorem C45_hash_injective : forall a b, hash_value a = hash_value b <-> a = b.
Proof. intros a b. split; [apply hash_value_inj|now intros ->]. Qed.
Print Assumptions C45_hash_injective.

Example C45_nonvacuous :
  value_eqb (VArray [VPoint (0, 5)]) (VArray [VPoint (0, 5)]) = true /\ coordinates (VArray [VPoint (0, 5)]) = [0; 5] /\
  no_geo (VMap [VString [1]] [VArray [VFloat64 (2047 * 2 ^ 52 + 1)]]) = true.
Proof. repeat split. Qed.

(** Equal keys that hash differently, and a key not equal to itself. *)
Theorem C45_hash_refuted : exists a b, value_eqb a b = true /\ hash_value a <> hash_value b.
Proof. exists (VPoint (0, 0)), (VPoint (2 ^ 63, 0)). split; [reflexivity|discriminate]. Qed.
Theorem C45_reflexive_refuted : exists v, representable v = true /\ value_eqb v v = false.
Proof. exists (VPoint (2047 * 2 ^ 52 + 1, 0)). split; reflexivity. Qed.

Print Assumptions C45_symmetric.
Print Assumptions C45_transitive.
Print Assumptions C45_reflexive_iff.
Print Assumptions C45_hash_iff.
Print Assumptions C45_no_geo.
Print Assumptions C45_hash_refuted.
Print Assumptions C45_reflexive_refuted.

(* ---------------- C59 ---------------- *)

(** Type inference always gives a type, except that it panics exactly when one of the values
    that decide the type is an enum. *)
Theorem C59_panics_iff : forall v,
  guess_type v = Panic <-> exists w, leading v w /\ is_enum w = true.
Proof. intros v. apply decided. Qed.
Theorem C59_never_an_error : forall v e, guess_type v <> Err e.
Proof. intros v. apply decided. Qed.

(** For types that their values determine, a value of the type without empty arrays or maps is
    given that very type. *)
Theorem C59_exact : forall t v,
  plain_type t = true -> typed t v = true -> shape_ok t v = true -> no_empty v = true -> guess_type v = Ok t.
Proof. exact guess_exact. Qed.

(** In general the type is the one the rules of [guessed] give, and no other. *)
Theorem C59_rules : forall v t, guess_type v = Ok t <-> guessed v t.
Proof. exact guess_ruled. Qed.
Print Assumptions C59_rules.
Example C59_rules_nonvacuous :
  guessed (VTuple [VNull; VArray []; VMap [VDateTime64 0 5 3] [VArray [VNull; VUInt I8 1]]])
    (TTuple [TNullable TString; TArray TString; TMap (TDateTime64 3 0) (TArray (TNullable TString))]).
Proof. apply C59_rules. reflexivity. Qed.

Example C59_nonvacuous :
  let t := TMap TString (TArray (TTuple [TUInt I8; TDecimal64 3; TPoint])) in
  let v := VMap [VString []] [VArray [VTuple [VUInt I8 1; VDecimal64 3 (-2); VPoint (0, 0)]]] in
  plain_type t = true /\ typed t v = true /\ shape_ok t v = true /\ no_empty v = true.
Proof. repeat split. Qed.
Example C59_enum_nonvacuous : exists w, leading (VArray [VTuple [VNull; VEnum8 1]]) w /\ is_enum w = true.
Proof. exists (VEnum8 1). split; [|reflexivity]. apply lead_array. eapply lead_tuple; [right; left; reflexivity|apply lead_self]. Qed.

(** Otherwise the inferred type need not fit the value it was inferred from. *)
Theorem C59_empty_first_refuted : exists v t, typed (TArray (TArray (TUInt I16))) v = true /\ guess_type v = Ok t /\ inner_validate t v = false.
Proof. exists (VArray [VArray []; VArray [VUInt I16 1]]), (TArray (TArray TString)). repeat split. Qed.

Print Assumptions C59_panics_iff.
Print Assumptions C59_never_an_error.
Print Assumptions C59_exact.
Print Assumptions C59_empty_first_refuted.

(* ---------------- C60 ---------------- *)

(** Whatever bytes the peer sends, if a column decodes then every value in it has the variant
    its column type names, at every level of nesting, and holds numbers of its machine type. *)
Theorem C60_decoded_values : forall t rows inp vs rest,
  bytes_ok inp -> deser t rows inp = Ok (vs, rest) ->
  Forall (fun v => typed t v = true /\ representable v = true) vs /\ bytes_ok rest.
Proof. intros t rows inp vs rest B E. exact (deser_typed t rows inp vs rest B E). Qed.

(** So converting decoded values into any Rust type (chrono aside) never panics. *)
Theorem C60_reading_never_panics : forall r t rows inp vs rest v,
  bytes_ok inp -> deser t rows inp = Ok (vs, rest) -> In v vs -> calm r ->
  from_sql r (strip_low_cardinality t) v <> Panic.
Proof.
  intros r t rows inp vs rest v B E I NC. destruct (C60_decoded_values t rows inp vs rest B E) as [F _].
  destruct (proj1 (Forall_forall _ _) F v I) as [T _]. apply (safe r NC). now rewrite typed_strip.
Qed.

Example C60_nonvacuous : exists vs,
  deser (TArray (TLowCard (TNullable TString))) 1 ([2;0;0;0;0;0;0;0] ++ [0;2;0;0;0;0;0;0] ++ [2;0;0;0;0;0;0;0] ++ [0] ++ [1;97] ++ [2;0;0;0;0;0;0;0] ++ [1;0])
    = Ok (vs, []) /\ bytes_ok [2;97;0] /\ vs = [VArray [VString [97]; VNull]].
Proof. eexists. split; [vm_compute; reflexivity|]. split; [repeat constructor|reflexivity]. Qed.

Print Assumptions C60_decoded_values.
Print Assumptions C60_reading_never_panics.
