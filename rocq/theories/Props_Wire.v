(** Properties C01-C06 and C47: everything sent to the server is read back. *)
From Verif Require Import Base Io IoProofs IoExact Types Ser Deser ColumnSpec ColumnProofs ColumnRoundtrip LowCardProofs WireProofs.

(* ===================== C01: varints ===================== *)

(** Written integers below 2^63 are read back, whatever follows. *)
Theorem C01_varint_roundtrip : forall v rest,
  v < 2 ^ 63 -> read_var_uint (write_var_uint v ++ rest) = Ok (v, rest).
Proof. exact read_write_var_uint. Qed.

(** What exactly happens for every u64: the top bit is lost. *)
Theorem C01_varint_all_u64 : forall v rest,
  read_var_uint (write_var_uint v ++ rest) = Ok (v mod 2 ^ 63, rest).
Proof. exact read_write_var_uint_all. Qed.

(** The encoding is standard LEB128, of one to nine octets. *)
Theorem C01_varint_format : forall v, v < 2 ^ 63 ->
  write_var_uint v = leb128 9 v /\ (1 <= length (write_var_uint v) <= 9)%nat /\ bytes_ok (write_var_uint v).
Proof. exact (fun v H => conj (write_var_uint_leb128 v H) (conj (write_var_uint_length v) (write_var_uint_bytes v))). Qed.

(** No two integers share an encoding, and none is a prefix of another. *)
Theorem C01_varint_prefix_free : forall v w r1 r2,
  v < 2 ^ 63 -> w < 2 ^ 63 -> write_var_uint v ++ r1 = write_var_uint w ++ r2 -> v = w /\ r1 = r2.
Proof. exact write_var_uint_prefix_free. Qed.

(** Finding: 2^63 is a u64 and comes back as 0. *)
Theorem C01_top_bit_refuted : exists v, v < 2 ^ 64 /\ forall rest,
  read_var_uint (write_var_uint v ++ rest) = Ok (0, rest) /\ v <> 0.
Proof. exact varint_top_bit. Qed.

(** What is read from any octets: up to nine of them, ending with the first below 128, seven bits each, least
    significant first ([digits], [varint_octets] in IoExact.v). *)
Theorem C01_read_exact : forall inp v rest, bytes_ok inp ->
  (read_var_uint inp = Ok (v, rest) <-> exists used, inp = used ++ rest /\ varint_octets used /\ v = digits used).
Proof. exact read_var_uint_exact. Qed.
(** The only other outcome is a stream that ends too early. *)
Theorem C01_read_short : forall inp, bytes_ok inp ->
  (read_var_uint inp = Err EIo <-> (length inp < 9)%nat /\ Forall (fun c => 128 <= c) inp) /\
  ((exists v rest, read_var_uint inp = Ok (v, rest)) \/ read_var_uint inp = Err EIo).
Proof. exact read_var_uint_short. Qed.
Example C01_read_nonvacuous : varint_octets [129; 0] /\ digits [129; 0] = 1 /\ read_var_uint [129; 0; 7] = Ok (1, [7]) /\
  varint_octets [255; 255; 255; 255; 255; 255; 255; 255; 255] /\ digits [255; 255; 255; 255; 255; 255; 255; 255; 255] = 2 ^ 63 - 1.
Proof.
  split; [exists [129], 0; repeat split; [repeat constructor; discriminate|cbn; lia|intros H; now elim H]|].
  split; [reflexivity|]. split; [reflexivity|]. split; [|reflexivity].
  exists [255; 255; 255; 255; 255; 255; 255; 255], 255. repeat split; [repeat constructor; discriminate|cbn; lia].
Qed.

Example C01_nonvacuous : 300 < 2 ^ 63 /\ write_var_uint 300 = [172; 2]
  /\ read_var_uint ([172; 2] ++ [7; 7]) = Ok (300, [7; 7]).
Proof. repeat split. Qed.

Print Assumptions C01_varint_roundtrip.
Print Assumptions C01_varint_all_u64.
Print Assumptions C01_varint_format.
Print Assumptions C01_varint_prefix_free.
Print Assumptions C01_top_bit_refuted.
Print Assumptions C01_read_exact.
Print Assumptions C01_read_short.

(* ===================== C02: strings ===================== *)

Theorem C02_string_roundtrip : forall s rest,
  lenN s <= 2 ^ 30 -> read_string (write_string s ++ rest) = Ok (s, rest).
Proof. exact read_write_string. Qed.

(** A declared length above 2^30 is an error whatever follows (nothing of it is used). *)
Theorem C02_string_limit : forall n rest,
  2 ^ 30 < n -> n < 2 ^ 63 -> read_string (write_var_uint n ++ rest) = Err EProtocol.
Proof. exact read_string_too_long. Qed.

Theorem C02_string_truncated : forall s k,
  lenN s <= 2 ^ 30 -> (k < length s)%nat -> read_string (write_var_uint (lenN s) ++ firstn k s) = Err EIo.
Proof. exact read_string_truncated. Qed.

(** What is read from any octets, written by this library or not: a length of at most 2^30 and that many octets. *)
Theorem C02_read_exact : forall inp s rest,
  read_string inp = Ok (s, rest) <-> exists mid, read_var_uint inp = Ok (lenN s, mid) /\ lenN s <= 2 ^ 30 /\ mid = s ++ rest.
Proof. exact read_string_exact. Qed.
Theorem C02_read_too_big : forall inp n mid, read_var_uint inp = Ok (n, mid) -> 2 ^ 30 < n -> read_string inp = Err EProtocol.
Proof. exact read_string_too_big. Qed.

Example C02_nonvacuous : lenN [104; 105] <= 2 ^ 30 /\ write_string [104; 105] = [2; 104; 105]
  /\ read_string [2; 104] = Err EIo.
Proof. repeat split; discriminate. Qed.

Print Assumptions C02_string_roundtrip.
Print Assumptions C02_read_exact.
Print Assumptions C02_read_too_big.
Print Assumptions C02_string_limit.
Print Assumptions C02_string_truncated.

(* ===================== C03: scalar columns ===================== *)

Theorem C03_scalar_columns : forall t w vs,
  width t = Some w -> lenN vs <= 2 ^ 30 ->
  Forall (fun v => representable v = true /\ same_scalar t v = true) vs ->
  exists bs, ser t vs = Ok bs /\ lenN bs = w * lenN vs /\
    forall rest, deser t (lenN vs) (bs ++ rest) = Ok (vs, rest).
Proof. exact scalar_roundtrip. Qed.

(** Two NaNs with different payloads, minus zero, and the extreme Int64s. *)
Example C03_nonvacuous :
  width TFloat64 = Some 8 /\
  Forall (fun v => representable v = true /\ same_scalar TFloat64 v = true)
    [VFloat64 9221120237041090561; VFloat64 9221120237041090562; VFloat64 (2 ^ 63)] /\
  Forall (fun v => representable v = true /\ same_scalar (TInt I64) v = true) [VInt I64 (- 2 ^ 63); VInt I64 (2 ^ 63 - 1)].
Proof. repeat split; repeat constructor. Qed.

Print Assumptions C03_scalar_columns.

(* ===================== C04: every column ===================== *)

(** For every valid type of any depth and every column of values that belong to it:
    the serializer succeeds and the deserializer returns the values in normal form
    and stops exactly where the column ends. *)
Theorem C04_column_roundtrip : forall t vs,
  validate t = true -> Forall (fun v => sendable t v = true) vs -> fits t vs ->
  exists bs, ser t vs = Ok bs /\ bytes_ok bs /\
    forall rest, deser t (lenN vs) (bs ++ rest) = Ok (map (normal t) vs, rest).
Proof. exact column_roundtrip. Qed.

(** The normal form only differs from the value for byte arrays sent as strings,
    FixedString padding and UInt8 sent to Int8: elsewhere it is the identity. *)
Theorem C04_normal_identity : forall t v,
  inner_validate t v = true -> shape_ok t v = true -> canonical t v = true -> normal t v = v.
Proof. exact normal_canonical. Qed.

Example C04_nonvacuous :
  let t := TMap (TLowCard TString) (TArray (TTuple [TNullable (TUInt I16); TPolygon])) in
  let v := VMap [VString [97]; VString [98]] [VArray [VTuple [VNull; VPolygon [[(0, 1); (2, 3)]]]]; VArray []] in
  validate t = true /\ Forall (fun v => sendable t v = true) [v; v] /\ fits t [v; v] /\ canonical t v = true.
Proof. repeat split; try (repeat constructor); unfold within; discriminate. Qed.

Print Assumptions C04_column_roundtrip.
Print Assumptions C04_normal_identity.

(* ===================== C05: FixedString and byte arrays ===================== *)

Theorem C05_fixed_string : forall n l,
  n < 2 ^ 63 -> lenN l <= 2 ^ 30 -> Forall bytes_ok l ->
  exists out, ser (TFixedString n) (map VString l) = Ok out /\ lenN out = n * lenN l /\
    forall rest, deser (TFixedString n) (lenN l) (out ++ rest)
      = Ok (map (fun bs => VString (fixed_view n bs)) l, rest).
Proof. exact fixed_string_roundtrip. Qed.

Theorem C05_fixed_string_unchanged : forall n bs,
  fixed_view n bs = bs <-> lenN bs <= n /\ ~ In 0 bs.
Proof. exact fixed_view_id. Qed.

Theorem C05_byte_arrays : forall t items,
  (t = TString \/ exists n, t = TFixedString n) ->
  forallb is_byte_value items = true -> forallb representable items = true ->
  ser t [VArray items] = ser t [VString (map spec_byte items)] /\ bytes_ok (map spec_byte items).
Proof. exact byte_array_as_string. Qed.

Example C05_nonvacuous : Forall bytes_ok [[104; 0; 105]; [1; 2; 3; 4; 5]]
  /\ fixed_view 4 [104; 0; 105] = [104] /\ fixed_view 4 [1; 2; 3; 4; 5] = [1; 2; 3; 4]
  /\ forallb is_byte_value [VUInt I8 200; VInt I8 (-56)] = true /\ map spec_byte [VUInt I8 200; VInt I8 (-56)] = [200; 200].
Proof. repeat split; repeat constructor. Qed.

Print Assumptions C05_fixed_string.
Print Assumptions C05_fixed_string_unchanged.
Print Assumptions C05_byte_arrays.

(* ===================== C06: LowCardinality ===================== *)

(** The layout written: flags, dictionary size, dictionary, row count, indices; the
    dictionary holds every distinct value once in order of first occurrence (NULL first
    for a Nullable inner type), each index points at its row's value and fits the width
    announced in the flags.  The number of rows is not limited here. *)
Theorem C06_low_cardinality_layout : forall t vs,
  validate (TLowCard t) = true -> vs <> [] -> lenN vs < 2 ^ 64 ->
  Forall (fun v => sendable (TLowCard t) v = true) vs ->
  let nullable := is_nullable t in
  let keys := (if nullable then [VNull] else []) ++ firsts (filter (fun v => negb (nullable && is_null v)) vs) in
  NoDup keys /\
  forall bs, ser (TLowCard t) vs = Ok bs ->
  exists flags body w pos,
    bs = le_bytes 8 flags ++ le_bytes 8 (lenN keys) ++ body ++ le_bytes 8 (lenN vs)
         ++ concat (map (le_bytes (ibytes w)) pos)
    /\ ser (strip_null t) keys = Ok body
    /\ flags = N.lor (match w with I8 => 0 | I16 => 1 | I32 => 2 | _ => 3 end) (2 ^ 9)
    /\ Forall2 (fun i v => nth_error keys (N.to_nat i) = Some v /\ i < 2 ^ (8 * N.of_nat (ibytes w))) pos vs.
Proof. exact low_card_layout. Qed.

(** ... and it decodes to the rows, in order. *)
Theorem C06_low_cardinality_roundtrip : forall t vs,
  validate (TLowCard t) = true -> Forall (fun v => sendable (TLowCard t) v = true) vs -> lenN vs < 2 ^ 30 ->
  Forall (fun v => str_len v <= 2 ^ 30) vs -> lengths_ok t = true ->
  exists bs, ser (TLowCard t) vs = Ok bs /\
    forall rest, deser (TLowCard t) (lenN vs) (bs ++ rest) = Ok (map (normal t) vs, rest).
Proof. exact low_card_roundtrip. Qed.

(** [value_eqb], used by [firsts], is equality on the values such a column can hold. *)
Theorem C06_key_equality : forall t v w, lc_allowed (strip_null t) = true ->
  inner_validate t v = true -> (value_eqb v w = true <-> v = w).
Proof. exact lc_value_eqb. Qed.

Example C06_nonvacuous :
  let t := TNullable TString in let vs := [VString [98]; VNull; VString [97]; VString [98]] in
  validate (TLowCard t) = true /\ Forall (fun v => sendable (TLowCard t) v = true) vs /\
  firsts (filter (fun v => negb (is_null v)) vs) = [VString [98]; VString [97]] /\
  ser (TLowCard t) vs = Ok ([0;2;0;0;0;0;0;0; 3;0;0;0;0;0;0;0; 0; 1;98; 1;97; 4;0;0;0;0;0;0;0; 1;0;2;1]).
Proof. repeat split; repeat constructor. Qed.

Print Assumptions C06_low_cardinality_layout.
Print Assumptions C06_low_cardinality_roundtrip.
Print Assumptions C06_key_equality.

(* ===================== C47: prefixes ===================== *)

Theorem C47_prefix_roundtrip : forall t, validate t = true ->
  forall rest, deser_prefix t (ser_prefix t ++ rest) = Ok (tt, rest).
Proof. exact prefix_roundtrip. Qed.

(** The reader accepts nothing else: it succeeds exactly on what the writer wrote and leaves what
    follows, so a dictionary of another version is an error. *)
Theorem C47_prefix_exact : forall t, validate t = true ->
  forall inp rest, deser_prefix t inp = Ok (tt, rest) <-> inp = ser_prefix t ++ rest.
Proof. exact prefix_exact. Qed.

(** And what is written: the number 1, in eight bytes, for each dictionary in the type that is not
    under a Nullable. *)
Fixpoint dictionaries (t : ty) : nat :=
  match t with
  | TArray t' => dictionaries t'
  | TTuple ts => list_sum (map dictionaries ts)
  | TMap k v => (dictionaries k + dictionaries v)%nat
  | TLowCard _ => 1%nat
  | _ => 0%nat
  end.
Theorem C47_prefix_bytes : forall t, ser_prefix t = concat (repeat [1; 0; 0; 0; 0; 0; 0; 0] (dictionaries t)).
Proof.
  induction t as [t Hl|t IH|t IH|ts IH|t IH|k v IHk IHv] using ty_ind_leaf.
  - destruct t; try discriminate Hl; reflexivity.
  - reflexivity.
  - exact IH.
  - cbn [ser_prefix dictionaries]. induction IH as [|t ts H _ IHts]; [reflexivity|].
    cbn [flat_map map list_sum fold_right]. rewrite H, IHts, repeat_app, concat_app. reflexivity.
  - reflexivity.
  - cbn [ser_prefix dictionaries]. now rewrite IHk, IHv, repeat_app, concat_app.
Qed.

(** Finding (outside the valid types, hence not a counterexample to C47): the reader of
    Nullable looks for the inner prefix, the writer omits it. *)
Theorem C47_nullable_low_cardinality_mismatch :
  ser_prefix (TNullable (TLowCard TString)) = [] /\ deser_prefix (TNullable (TLowCard TString)) [] = Err EIo
  /\ validate (TNullable (TLowCard TString)) = false.
Proof. exact (conj eq_refl (conj eq_refl eq_refl)). Qed.

Example C47_nonvacuous :
  let t := TTuple [TArray (TLowCard TString); TMap (TLowCard TDate) (TInt I8)] in
  validate t = true /\ ser_prefix t = [1;0;0;0;0;0;0;0; 1;0;0;0;0;0;0;0] /\
  deser_prefix t [1;0;0;0;0;0;0;0; 2;0;0;0;0;0;0;0] = Err EDeser /\ dictionaries t = 2%nat.
Proof. repeat split; reflexivity. Qed.

Print Assumptions C47_prefix_roundtrip.
Print Assumptions C47_prefix_exact.
Print Assumptions C47_prefix_bytes.
Print Assumptions C47_nullable_low_cardinality_mismatch.
