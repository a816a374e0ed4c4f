(** Properties C61-C63: conformance to the Native wire format. *)
From Coq Require Import String.
From Verif Require Import Base Io IoProofs Types Text TypeText TypeTextProofs TypeTextProofs2 Utf8 IndexMap Ser Deser ColumnSpec
  ColumnProofs ColumnRoundtrip LowCardProofs WireProofs DecodeProofs WireSpec WireDecode WireEncode SharedDict Block BlockSpec BlockProofs BlockWire
  Compression CompressionProofs FrameWire Props_TypeText Props_Block Props_Compression.
Local Open Scope list_scope.
Local Open Scope N_scope.

(* ===================== C61: columns ===================== *)

(** Whatever encoding of a column a peer chooses (any dictionary, index width, NULL
    placeholder), reading it gives exactly its values and consumes exactly its bytes. *)
Theorem C61_columns_read : forall t vs bs rest, encodes (2 ^ 30) t vs bs ->
  deser t (lenN vs) (bs ++ rest) = Ok (vs, rest).
Proof. intros t vs bs rest H. apply (proj1 wire_decode t vs bs H). Qed.

(** What is sent for a column is an encoding of its (normalised) values. *)
Theorem C61_columns_written : forall t vs, validate t = true ->
  Forall (fun v => sendable t v = true) vs -> fits t vs ->
  exists bs, ser t vs = Ok bs /\ encodes (2 ^ 30) t (map (normal t) vs) bs.
Proof. exact wire_encode. Qed.

(** The column prefix: both directions. *)
Theorem C61_prefixes : forall t bs rest,
  (prefix_wire t bs -> deser_prefix t (bs ++ rest) = Ok (tt, rest)) /\
  (validate t = true -> prefix_wire t (ser_prefix t)).
Proof. intros t bs rest. split; [apply read_prefix_wire|apply write_prefix_wire]. Qed.

(** The format leaves the bytes after a FixedString's end to the sender; the library sends
    the first n bytes of the string followed by NULs. *)
Lemma firstn_repeat' {A} (x : A) k m : (k <= m)%nat -> firstn k (repeat x m) = repeat x k.
Proof. revert m. induction k as [|k IH]; intros [|m] H; cbn [firstn repeat]; try reflexivity; [lia|]. f_equal. apply IH. lia. Qed.
Lemma fixed_bytes n s : enc_string (TFixedString n) (VString s) = Ok (firstn (N.to_nat n) (s ++ repeat 0 (N.to_nat n))).
Proof.
  change (enc_string (TFixedString n) (VString s)) with (Ok (emit_bytes (TFixedString n) s)). f_equal.
  unfold emit_bytes. rewrite takeN_firstn. unfold lenN.
  destruct (N.leb_spec n (N.of_nat (length s))) as [H|H].
  - rewrite firstn_app. replace (N.to_nat n - length s)%nat with 0%nat by lia. cbn [firstn]. now rewrite app_nil_r.
  - rewrite firstn_app, firstn_all2 by lia. f_equal.
    replace (N.to_nat (n - N.of_nat (length s))) with (N.to_nat n - length s)%nat by lia.
    symmetry. apply firstn_repeat'. lia.
Qed.
Theorem C61_fixed_string_padding : forall n l,
  ser (TFixedString n) (map VString l) = Ok (flat_map (fun s => firstn (N.to_nat n) (s ++ repeat 0 (N.to_nat n))) l).
Proof.
  intros n l. cbn [ser]. unfold ser_string. induction l as [|s l IH]; [reflexivity|].
  cbn [map mapM flat_map]. rewrite fixed_bytes. cbn [rbind rmap] in *.
  destruct (mapM (enc_string (TFixedString n)) (map VString l)) as [ps| |]; cbn [rbind rmap concat] in *; congruence.
Qed.

(** A conformant LowCardinality(Nullable(String)) column a server could send but the library
    would not: two dictionaries, the first with an unused key, one and two byte indices. *)
Definition demo_lc_bytes : list N :=
  [0; 6; 0; 0; 0; 0; 0; 0] ++ [3; 0; 0; 0; 0; 0; 0; 0] ++ [0; 1; 120; 1; 97] ++ [2; 0; 0; 0; 0; 0; 0; 0] ++ [2; 0] ++
  [1; 2; 0; 0; 0; 0; 0; 0] ++ [2; 0; 0; 0; 0; 0; 0; 0] ++ [0; 1; 98] ++ [1; 0; 0; 0; 0; 0; 0; 0] ++ [1; 0] ++ [].
Lemma demo_word n x bs : lenN bs = n -> Forall (fun b => b < 256) bs -> number bs = x -> word n x bs.
Proof. repeat split; assumption. Qed.
Ltac bytes_tac := repeat (apply Forall_cons; [reflexivity|]); apply Forall_nil.
Example C61_nonvacuous :
  encodes (2 ^ 30) (TLowCard (TNullable TString)) [VString [97]; VNull; VString [98]] demo_lc_bytes /\
  deser (TLowCard (TNullable TString)) 3 demo_lc_bytes = Ok ([VString [97]; VNull; VString [98]], []) /\
  ser (TFixedString 3) (map VString [[104]; [1; 2; 3; 4]]) = Ok [104; 0; 0; 1; 2; 3].
Proof.
  split; [|split; reflexivity].
  apply enc_low; [vm_compute; discriminate|].
  apply (dict_more _ _ 0 1 true _ [VString []; VString [120]; VString [97]] _ _ _ [2; 0] _ [VString [97]; VNull] [VString [98]]).
  - left. split; reflexivity.
  - apply demo_word; [reflexivity|bytes_tac|reflexivity].
  - apply demo_word; [reflexivity|bytes_tac|reflexivity].
  - apply (enc_str _ _ [[0]; [1; 120]; [1; 97]]); [vm_compute; discriminate|].
    repeat (apply Forall2_cons || apply Forall2_nil);
      (eexists; split; [reflexivity|]; split; [vm_compute; discriminate|]; split; [bytes_tac|reflexivity]).
  - apply demo_word; [reflexivity|bytes_tac|reflexivity].
  - discriminate.
  - repeat (apply Forall2_cons || apply Forall2_nil); reflexivity.
  - exists [[2]; [0]]. split; [|reflexivity].
    repeat (apply Forall2_cons || apply Forall2_nil); (apply demo_word; [reflexivity|bytes_tac|reflexivity]).
  - apply (dict_more _ _ 1 2 false [1; 2; 0; 0; 0; 0; 0; 0] [VString []; VString [98]] [2; 0; 0; 0; 0; 0; 0; 0] [0; 1; 98] [1; 0; 0; 0; 0; 0; 0; 0] [1] [1; 0] [VString [98]] []).
    + right; left. split; reflexivity.
    + apply demo_word; [reflexivity|bytes_tac|reflexivity].
    + apply demo_word; [reflexivity|bytes_tac|reflexivity].
    + apply (enc_str _ _ [[0]; [1; 98]]); [vm_compute; discriminate|].
      repeat (apply Forall2_cons || apply Forall2_nil);
        (eexists; split; [reflexivity|]; split; [vm_compute; discriminate|]; split; [bytes_tac|reflexivity]).
    + apply demo_word; [reflexivity|bytes_tac|reflexivity].
    + discriminate.
    + repeat (apply Forall2_cons || apply Forall2_nil); reflexivity.
    + exists [[1; 0]]. split; [|reflexivity].
      repeat (apply Forall2_cons || apply Forall2_nil); (apply demo_word; [reflexivity|bytes_tac|reflexivity]).
    + apply dict_none.
Qed.

(** The same for LowCardinality columns with a dictionary shared between chunks (SharedDict.v). *)
Theorem C61_shared_dictionaries_read : forall t vs bs rest, chunks (2 ^ 30) t None vs bs -> lenN vs <= 2 ^ 30 ->
  deser (TLowCard t) (lenN vs) (bs ++ rest) = Ok (vs, rest).
Proof. exact shared_read. Qed.
(** Finding: with only a shared dictionary, index 0 of a Nullable column is not NULL but the placeholder. *)
Theorem C61_shared_null_refuted :
  deser (TLowCard (TNullable TString)) 1
    ([0; 1; 0; 0; 0; 0; 0; 0] ++ [2; 0; 0; 0; 0; 0; 0; 0] ++ [0; 1; 120] ++ [1; 0; 0; 0; 0; 0; 0; 0] ++ [0]) = Ok ([VString []], []).
Proof. reflexivity. Qed.
(** Two chunks: the first brings the shared dictionary ["x"] and the key "a" of its own, the second uses the same
    shared dictionary alone. *)
Definition demo_shared_bytes : list N :=
  [0; 3; 0; 0; 0; 0; 0; 0] ++ ([1; 0; 0; 0; 0; 0; 0; 0] ++ [1; 120]) ++ ([1; 0; 0; 0; 0; 0; 0; 0] ++ [1; 97]) ++ [3; 0; 0; 0; 0; 0; 0; 0] ++ [1; 0; 1] ++
  ([1; 1; 0; 0; 0; 0; 0; 0] ++ [] ++ [] ++ [1; 0; 0; 0; 0; 0; 0; 0] ++ [0; 0] ++ []).
Example C61_shared_nonvacuous :
  chunks (2 ^ 30) TString None [VString [120]; VString [97]; VString [120]; VString [120]] demo_shared_bytes /\
  deser (TLowCard TString) 4 demo_shared_bytes = Ok ([VString [120]; VString [97]; VString [120]; VString [120]], []).
Proof.
  assert (D : forall c, c < 256 -> dictionary (2 ^ 30) TString (Some [VString [c]]) ([1; 0; 0; 0; 0; 0; 0; 0] ++ [1; c])).
  { intros c C. exists [1; 0; 0; 0; 0; 0; 0; 0], [1; c]. split; [apply demo_word; [reflexivity|bytes_tac|reflexivity]|]. split; [|reflexivity].
    apply (enc_str _ _ [[1; c]]); [vm_compute; discriminate|]. repeat (apply Forall2_cons || apply Forall2_nil).
    eexists; split; [reflexivity|]; split; [vm_compute; discriminate|]; split; [|reflexivity]. constructor; [exact C|constructor]. }
  split; [|reflexivity].
  apply (chunks_more _ _ None 0 1 false true (Some [VString [97]]) (Some [VString [120]]) _ (Some [VString [120]]) _ _ _ [1; 0; 1] _
    [VString [120]; VString [97]; VString [120]] [VString [120]]).
  - left; split; reflexivity.
  - apply demo_word; [reflexivity|bytes_tac|reflexivity].
  - split; reflexivity.
  - now apply D.
  - now apply D.
  - apply demo_word; [reflexivity|bytes_tac|reflexivity].
  - discriminate.
  - repeat (apply Forall2_cons || apply Forall2_nil); reflexivity.
  - exists [[1]; [0]; [1]]. split; [|reflexivity].
    repeat (apply Forall2_cons || apply Forall2_nil); (apply demo_word; [reflexivity|bytes_tac|reflexivity]).
  - apply (chunks_more _ _ (Some [VString [120]]) 1 2 false true None (Some [VString [120]]) _ None [] [] _ [0] _ [VString [120]] [] []).
    + right; left; split; reflexivity.
    + apply demo_word; [reflexivity|bytes_tac|reflexivity].
    + split; reflexivity.
    + reflexivity.
    + reflexivity.
    + apply demo_word; [reflexivity|bytes_tac|reflexivity].
    + discriminate.
    + repeat (apply Forall2_cons || apply Forall2_nil); reflexivity.
    + exists [[0; 0]]. split; [|reflexivity]. repeat (apply Forall2_cons || apply Forall2_nil); (apply demo_word; [reflexivity|bytes_tac|reflexivity]).
    + apply chunks_none.
Qed.

Print Assumptions C61_shared_dictionaries_read.
Print Assumptions C61_shared_null_refuted.
Print Assumptions C61_columns_read.
Print Assumptions C61_columns_written.
Print Assumptions C61_prefixes.
Print Assumptions C61_fixed_string_padding.

(* ===================== C17: block infos ===================== *)

(** Whatever fields a server sends, in whatever order: the last one of each kind counts. *)
Theorem C17_info_fields : forall i bs rest, info_fields no_info i bs -> read_info (bs ++ rest) = Ok (i, rest).
Proof. intros i bs rest H. unfold read_info. apply (read_info_fields no_info i bs H). rewrite app_length. lia. Qed.
(** A field with another number is an error, after any others. *)
Theorem C17_unknown_field : forall i bs n rest, info_fields no_info i (bs ++ [0]) -> 2 < n < 2 ^ 63 ->
  read_info (bs ++ write_var_uint n ++ rest) = Err EProtocol.
Proof.
  intros i bs n rest H Hn. unfold read_info. apply (read_info_unknown no_info i _ H); [reflexivity| |exact Hn].
  pose proof (write_var_uint_length n). rewrite !app_length. cbn [length]. lia.
Qed.
Example C17_fields_nonvacuous : info_fields no_info {| is_overflows := true; bucket_num := 5 |} ([2; 5; 0; 0; 0; 1; 7] ++ [0]) /\
  read_info ([2; 5; 0; 0; 0; 1; 7] ++ [3]) = Err EProtocol.
Proof.
  split; [|reflexivity]. cbn [app]. change [2; 5; 0; 0; 0; 1; 7; 0] with (2 :: [5; 0; 0; 0] ++ [1; 7; 0]).
  apply (info_bucket _ _ 5%Z); [lia|split; [reflexivity|]; split; [repeat constructor|reflexivity]|]. apply info_overflow; [reflexivity|]. apply info_end.
Qed.
Print Assumptions C17_info_fields.
Print Assumptions C17_unknown_field.

(* ===================== C62: blocks ===================== *)

(** Every conformant block (info fields in any order, any encodings) with distinct column
    names is read to exactly its contents, leaving the bytes after it. *)
Theorem C62_blocks_read : forall U D rev info rows cols bs rest, tzdb_ok D ->
  NoDup (map (fun c => fst (fst c)) cols) -> Forall (fun c => printable U (snd (fst c))) cols ->
  block_wire D rev info rows cols bs ->
  read_block U D rev (bs ++ rest) =
  Ok ({| b_info := info; b_rows := rows; b_types := map fst cols; b_data := map (fun c => (fst (fst c), snd c)) cols |}, rest).
Proof. intros; now apply block_wire_read. Qed.

(** What is sent for a well-formed block conforms. *)
Theorem C62_blocks_written : forall U D rev b, block_ok U D b -> (- 2 ^ 31 <= bucket_num (b_info b) < 2 ^ 31)%Z ->
  exists bytes, write_block D rev b = Ok bytes /\
    block_wire D rev (sent_info rev (b_info b)) (b_rows b)
      (map (fun e : text * ty => (fst e, snd e, map (normal (snd e)) (match im_get (fst e) (b_data b) with Some vs => vs | None => [] end))) (b_types b)) bytes.
Proof. exact block_wire_write. Qed.

(** A block with the info fields swapped and the overflow flag cleared. *)
Definition odd_block_bytes : list N :=
  [2; 255; 255; 255; 255; 1; 0; 0] ++ [1] ++ [2] ++ [1; 120; 5; 85; 73; 110; 116; 56; 7; 9].
Example C62_nonvacuous :
  block_wire demo_tz 54448 {| is_overflows := false; bucket_num := -1 |} 2 [(txt "x", TUInt I8, [VUInt I8 7; VUInt I8 9])] odd_block_bytes /\
  is_ok (read_block demo_uni demo_tz 54448 (odd_block_bytes ++ [5])) = true /\
  block_ok demo_uni demo_tz demo_block.
Proof.
  split; [|split; [vm_compute; reflexivity|exact (proj1 C16_nonvacuous)]].
  split; [reflexivity|]. split; [reflexivity|].
  exists [2; 255; 255; 255; 255; 1; 0; 0], [[1; 120; 5; 85; 73; 110; 116; 56; 7; 9]]. split; [|split; [|reflexivity]].
  - apply (info_bucket _ _ (-1) [255; 255; 255; 255]); [lia|apply demo_word; [reflexivity|bytes_tac|reflexivity]|].
    apply info_overflow; [reflexivity|]. apply info_end.
  - repeat (apply Forall2_cons || apply Forall2_nil). split; [reflexivity|].
    exists [1; 120], [5; 85; 73; 110; 116; 56], [7; 9].
    split; [split; [split; [reflexivity|vm_compute; discriminate]|reflexivity]|].
    split; [split; [split; [reflexivity|vm_compute; discriminate]|reflexivity]|].
    split; [reflexivity|]. split; [discriminate|]. intros _. exists [], [7; 9].
    split; [exists []; split; [constructor|reflexivity]|]. split; [|reflexivity].
    apply (enc_scalar _ _ _ [[7]; [9]]); [vm_compute; discriminate| |discriminate].
    repeat (apply Forall2_cons || apply Forall2_nil);
      (split; [reflexivity|]; split; [reflexivity|]; apply demo_word; [reflexivity|bytes_tac|reflexivity]).
Qed.

Print Assumptions C62_blocks_read.
Print Assumptions C62_blocks_written.

(* ===================== C63: compressed frames ===================== *)

(** Every conformant frame (hash, method, sizes, bytes that decompress to the payload) is read
    to exactly its payload, leaving the bytes after it. *)
Theorem C63_frames_read : forall K raw bs rest, frame_wire (city K) (unpacks K) raw bs ->
  read_blob K (bs ++ rest) = Ok (raw, rest).
Proof. intros; now apply frame_wire_read. Qed.

(** What is sent for a payload conforms. *)
Theorem C63_frames_written : forall K raw out, codec_ok K -> lz4_c K raw = Some out ->
  lenN raw < 2 ^ 32 -> lenN out + 9 <= 2 ^ 30 ->
  exists bs, frame K raw = Ok bs /\ frame_wire (city K) (unpacks K) raw bs.
Proof. exact frame_wire_write. Qed.

Example C63_nonvacuous : codec_ok demo_codec /\ lz4_c demo_codec [1; 2; 3] = Some [7; 1; 2; 3] /\
  frame demo_codec [1; 2; 3] = Ok [0; 0; 0; 0; 0; 0; 0; 0; 159; 0; 0; 0; 0; 0; 0; 0; 130; 13; 0; 0; 0; 3; 0; 0; 0; 7; 1; 2; 3].
Proof. split; [exact demo_codec_ok|]. split; reflexivity. Qed.

Print Assumptions C63_frames_read.
Print Assumptions C63_frames_written.
