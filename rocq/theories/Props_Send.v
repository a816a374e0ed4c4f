(** Property C13, the exact part: which validated columns are written, and which come back. *)
From Coq Require Import Lia.
From Verif Require Import Base Types Ser Deser ColumnSpec SendSpec SendProofs DecodeProofs2.

(** A column of validated values is either written or writing it panics, and it is written
    exactly if no tuple is too long, no map has unequal numbers of keys and values and no
    NULL goes to a Nullable geo type. *)
Theorem C13_written_iff : forall t vs,
  Forall (fun v => validate_value t v = Ok tt /\ representable v = true) vs -> fits t vs -> vs <> [] ->
  ((exists bs, ser t vs = Ok bs) <-> Forall (fun v => writable t v = true) vs) /\
  (ser t vs = Panic <-> ~ Forall (fun v => writable t v = true) vs).
Proof. exact validated_written. Qed.

(** Unless a LowCardinality column is itself an element of a tuple: a column of validated
    values comes back exactly if moreover no tuple is too short. *)
Theorem C13_comes_back_iff : forall t vs, plain_tuples t = true ->
  Forall (fun v => validate_value t v = Ok tt /\ representable v = true) vs -> fits t vs -> vs <> [] ->
  (exists bs, ser t vs = Ok bs /\ forall rest, deser t (lenN vs) (bs ++ rest) = Ok (map (normal t) vs, rest))
  <-> Forall (fun v => shape_ok t v = true) vs.
Proof.
  intros t vs P H F Hne. split.
  - intros (bs & E & D). specialize (D []). rewrite app_nil_r in D. exact (comes_back_shaped t vs bs [] P H F Hne E D).
  - intros S. apply validated_sends; auto. apply Forall_forall. intros v Hv.
    destruct (proj1 (Forall_forall _ _) H v Hv) as (A & B). split; [exact A|]. split; [exact B|]. exact (proj1 (Forall_forall _ _) S v Hv).
Qed.

(** What is read never has a tuple of the wrong length, whatever the bytes. *)
Theorem C13_tuples_are_full : forall t rows inp vs rest, validate t = true -> plain_tuples t = true ->
  Forall (fun b => b < 256) inp -> deser t rows inp = Ok (vs, rest) -> Forall (fun v => arity t v = true) vs.
Proof. intros t rows inp vs rest V P B E. exact (proj1 (deser_arity t V P rows inp vs rest B E)). Qed.

Example C13_written_nonvacuous :
  let t := TTuple [TUInt I8; TMap TString (TNullable TPoint)] in
  let good := VTuple [VUInt I8 1; VMap [VString [97]] [VPoint (1, 2)]] in
  let short := VTuple [VUInt I8 1] in
  let null := VTuple [VUInt I8 1; VMap [VString [97]] [VNull]] in
  Forall (fun v => validate_value t v = Ok tt /\ representable v = true) [good; short; null] /\ fits t [good; short; null] /\ plain_tuples t = true /\
  map (writable t) [good; short; null] = [true; true; false] /\ map (shape_ok t) [good; short; null] = [true; false; false].
Proof. cbv zeta. split; [repeat constructor|]. split; [|repeat split; reflexivity]. cbn [fits]. repeat split; repeat constructor; discriminate. Qed.

Print Assumptions C13_written_iff.
Print Assumptions C13_comes_back_iff.
Print Assumptions C13_tuples_are_full.
