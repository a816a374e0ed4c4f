(** Properties C20, C21 (compressed frames) and the incremental-reading parts of C09, C51. *)
From Coq Require Import String.
From Verif Require Import Base Io IoProofs Types Text TypeText TypeTextProofs Ser Deser ColumnSpec DecodeProofs Block BlockSpec
  BlockProofs Incremental Compression CompressionProofs Props_TypeText Props_Block.
Local Open Scope list_scope.
Local Open Scope N_scope.

(* ===================== C20 ===================== *)

(** A payload split into any chunks [ps], each sent as one frame: under every schedule of
    arriving bytes and polls of any sizes, no poll errors, what has been delivered is always
    a prefix of the payload, and once all bytes have arrived every poll with room makes
    progress until the whole payload is out. *)
Theorem C20_any_chunking : forall K ps fs es future,
  codec_ok K -> Forall (payload_ok K) ps -> framed K ps = Ok fs ->
  ~ In Close es -> arrivals es ++ future = fs ->
  let '(os, s) := d_run K d_new es in
  ~ In PError os /\ (exists more, delivered os ++ more = concat ps) /\
  (future = [] -> delivered os <> concat ps -> forall n, 0 < n ->
     exists b bs s', poll_read K s n = (PReady (b :: bs), s')).
Proof. exact chunked_delivery. Qed.

(** A block sent compressed, in any frames, is read back as the block that would be read
    from the uncompressed bytes, and the reader stops right after the last frame. *)
Theorem C20_compressed_block : forall K U D rev b b' bytes ps fs rest, codec_ok K ->
  write_block D rev b = Ok bytes -> (forall ext, read_block U D rev (bytes ++ ext) = Ok (b', ext)) ->
  concat ps = bytes -> (forall l x, ps = l ++ [x] -> x <> []) -> Forall (payload_ok K) ps -> framed K ps = Ok fs ->
  read_compressed K U D rev (fs ++ rest) = Ok (b', rest).
Proof. exact compressed_block_roundtrip. Qed.

(** A toy codec meeting the assumptions. *)
Definition demo_codec : codec := {|
  city := fun bs => fold_left N.add bs 0 mod 2 ^ 128;
  lz4_c := fun raw => Some (7 :: raw);
  lz4_d := fun data cap => match data with
                           | 7 :: raw => if lenN raw <=? cap then Some raw else None
                           | _ => None
                           end |}.
Lemma demo_codec_ok : codec_ok demo_codec.
Proof.
  split.
  - intros raw out cap [= <-] H. cbn [demo_codec lz4_d]. destruct (N.leb_spec (lenN raw) cap); [reflexivity|lia].
  - intros bs. apply N.mod_lt. vm_compute. discriminate.
Qed.

Example C20_nonvacuous :
  codec_ok demo_codec /\ Forall (payload_ok demo_codec) [[1; 2]; []; [3; 4; 5]] /\
  match framed demo_codec [[1; 2]; []; [3; 4; 5]] with
  | Ok fs => (let '(os, _) := d_run demo_codec d_new [Poll 2; Arrive (firstn 40 fs); Poll 1; Poll 5; Poll 5; Arrive (skipn 40 fs); Poll 1; Poll 9] in
              os = [PPending; PReady [1]; PReady [2]; PPending; PReady [3]; PReady [4; 5]])
  | _ => False
  end /\
  match framed demo_codec [firstn 9 demo_block_bytes; skipn 9 demo_block_bytes] with
  | Ok fs => exists b', read_compressed demo_codec demo_uni demo_tz 54429 (fs ++ [42]) = Ok (b', [42]) /\ b_types b' = b_types demo_block
  | _ => False
  end.
Proof.
  split; [exact demo_codec_ok|]. split.
  - repeat (apply Forall_cons || apply Forall_nil); (split; [reflexivity|eexists; split; [reflexivity|vm_compute; discriminate]]).
  - split; [reflexivity|]. vm_compute. eexists. split; reflexivity.
Qed.

Print Assumptions C20_any_chunking.
Print Assumptions C20_compressed_block.

(* ===================== C21 ===================== *)

(** A frame is accepted only if its method is LZ4, its size is in bounds and the stored
    checksum is the checksum of header and payload. *)
Theorem C21_accepted_frames : forall K inp v rest, read_blob K inp = Ok (v, rest) ->
  exists hi lo size raw_size data,
    lenN hi = 8 /\ lenN lo = 8 /\ lenN size = 4 /\ lenN raw_size = 4 /\
    inp = hi ++ lo ++ [130] ++ size ++ raw_size ++ data ++ rest /\
    9 <= le_val size <= 2 ^ 30 /\ lenN data = le_val size - 9 /\
    city K ([130] ++ le_bytes 4 (le_val size) ++ le_bytes 4 (le_val raw_size) ++ data) = le_val hi * 2 ^ 64 + le_val lo /\
    lz4_d K data (le_val raw_size + 1) = Some v.
Proof. exact read_blob_inv. Qed.

(** Change the checksum or anything it covers, keeping the size field: rejected unless the
    hash collides. *)
Theorem C21_corruption_detected : forall K hi lo method size raw_size data rest,
  lenN hi = 8 -> lenN lo = 8 -> lenN size = 4 -> lenN raw_size = 4 -> lenN data = le_val size - 9 ->
  bytes_ok size -> bytes_ok raw_size ->
  city K ([method] ++ size ++ raw_size ++ data) <> le_val hi * 2 ^ 64 + le_val lo ->
  read_blob K (hi ++ lo ++ [method] ++ size ++ raw_size ++ data ++ rest) = Err EProtocol.
Proof.
  intros K hi lo method size raw_size data rest L1 L2 L3 L4 L5 B1 B2 Hc.
  assert (R : forall n (bs x : list N), lenN bs = N.of_nat n -> read_le n (bs ++ x) = Ok (le_val bs, x)).
  { intros n bs x L. unfold read_le, rdbind. rewrite read_exact_app' by (symmetry; exact L). reflexivity. }
  unfold read_blob, rdbind. rewrite (R 8%nat) by exact L1. cbn [rbind]. rewrite (R 8%nat) by exact L2. cbn [rbind]. rewrite (R 1%nat [method]) by reflexivity. cbn [rbind].
  assert (LM : le_val [method] = method) by (unfold le_val; lia). rewrite LM.
  destruct (negb (method =? LZ4_BYTE)); [reflexivity|]. cbn [rbind]. rewrite (R 4%nat) by exact L3. cbn [rbind].
  destruct (MAX_COMPRESSION_SIZE <? le_val size); [reflexivity|]. destruct (le_val size <? 9); [reflexivity|]. rewrite (R 4%nat) by exact L4. cbn [rbind].
  rewrite read_exact_app' by (symmetry; exact L5). cbn [rbind].
  assert (V : forall l, bytes_ok l -> lenN l = 4 -> le_bytes 4 (le_val l) = l).
  { intros l B L. rewrite <- (le_bytes_val l B) at 2. f_equal. unfold lenN in L. lia. }
  rewrite (V size B1 L3), (V raw_size B2 L4).
  replace (city K ([method] ++ size ++ raw_size ++ data) =? le_val hi * 2 ^ 64 + le_val lo) with false; [reflexivity|]. symmetry. apply N.eqb_neq. exact Hc.
Qed.

(** When a frame is rejected the poll fails, nothing of the frame is delivered, and nothing
    is delivered ever after. *)
Theorem C21_rejected_is_final : forall K s n e, d_phase s = Idle -> d_pending s = [] -> 0 < n ->
  read_blob K (d_arrived s) = Err e -> e <> EIo ->
  exists s', poll_read K s n = (PError, s') /\
    forall es, delivered (fst (d_run K s' es)) = [].
Proof.
  intros K s n e H1 H2 H3 H4 H5. destruct (bad_frame_fails K s n e H1 H2 H3 H4 H5) as (s' & E & P). exists s'. split; [exact E|].
  intros es. pose proof (failed_stays K es s' P) as F. destruct (d_run K s' es). exact (proj1 F).
Qed.

(** The caller cannot tell corruption from a broken connection: a frame of a compressed block that
    is rejected - whatever is wrong with it, whichever frame it is - surfaces as an unexpected end
    of input. *)
Theorem C21_rejected_block : forall K U D rev ps fs bad e, codec_ok K -> Forall (payload_ok K) ps -> framed K ps = Ok fs ->
  read_block U D rev (concat ps) = Err EIo -> read_blob K bad = Err e -> read_compressed K U D rev (fs ++ bad) = Err EIo.
Proof.
  intros K U D rev ps fs bad e HK HP HF HR HB. unfold read_compressed. apply (read_frames_rejects K U D rev HK ps fs [] bad e); auto.
  rewrite app_length. lia.
Qed.

Example C21_nonvacuous :
  match frame demo_codec [1; 2] with
  | Ok f => read_blob demo_codec f = Ok ([1; 2], []) /\
            read_blob demo_codec (firstn 26 f ++ [9] ++ skipn 27 f) = Err EProtocol /\
            (let '(os, _) := d_run demo_codec d_new [Arrive (firstn 26 f ++ [9] ++ skipn 27 f); Poll 5; Arrive f; Poll 5] in os = [PError; PError])
  | _ => False
  end.
Proof. vm_compute. auto. Qed.

Print Assumptions C21_accepted_frames.
Print Assumptions C21_corruption_detected.
Print Assumptions C21_rejected_is_final.
Print Assumptions C21_rejected_block.
(** The error a frame itself gives is another one. *)
Theorem C21_corruption_reported_refuted : ~ forall K U D rev inp e, codec_ok K -> read_blob K inp = Err e -> read_compressed K U D rev inp = Err e.
Proof.
  intros H. specialize (H demo_codec demo_uni demo_tz 54429 (repeat 0 25) EProtocol demo_codec_ok eq_refl). vm_compute in H. discriminate H.
Qed.
Print Assumptions C21_corruption_reported_refuted.
Example C21_rejected_block_nonvacuous :
  match framed demo_codec [firstn 9 demo_block_bytes] with
  | Ok fs => read_block demo_uni demo_tz 54429 (concat [firstn 9 demo_block_bytes]) = Err EIo /\ read_blob demo_codec (repeat 0 25) = Err EProtocol /\
             read_compressed demo_codec demo_uni demo_tz 54429 (fs ++ repeat 0 25) = Err EIo
  | _ => False
  end.
Proof. vm_compute. auto. Qed.

(* ===================== C09, C51: decoding while bytes are arriving ===================== *)

(** On any prefix of the stream the decoder either lacks input or already has its final
    outcome: value, error or panic. *)
Theorem C09_incremental : forall t rows p q,
  deser t rows p = Err EIo \/
  deser t rows (p ++ q) = match deser t rows p with Ok (vs, rest) => Ok (vs, rest ++ q) | Err e => Err e | Panic => Panic end.
Proof. exact deser_incremental. Qed.
Theorem C09_truncated_is_eof : forall t rows used p q rest vs,
  deser t rows (used ++ rest) = Ok (vs, rest) -> used = p ++ q -> q <> [] -> deser t rows p = Err EIo.
Proof. intros t rows. exact (truncated_eio _ (deser_local t rows) (deser_incremental t rows)). Qed.

Theorem C51_incremental : forall U D rev p q,
  read_block U D rev p = Err EIo \/
  read_block U D rev (p ++ q) = match read_block U D rev p with Ok (b, rest) => Ok (b, rest ++ q) | Err e => Err e | Panic => Panic end.
Proof. exact block_incremental. Qed.
Theorem C51_truncated_is_eof : forall U D rev used p q rest b,
  read_block U D rev (used ++ rest) = Ok (b, rest) -> used = p ++ q -> q <> [] -> read_block U D rev p = Err EIo.
Proof. intros U D rev. exact (truncated_eio _ (block_local U D rev) (block_incremental U D rev)). Qed.

Example C09_incremental_nonvacuous :
  deser (TArray (TUInt I8)) 2 (firstn 17 (u64s [1; 3] ++ [7; 8; 9])) = Err EIo /\
  deser (TNullable (TUInt I8)) 1 [0; 5] = Ok ([VUInt I8 5], []).
Proof. split; reflexivity. Qed.

Print Assumptions C09_incremental.
Print Assumptions C09_truncated_is_eof.
Print Assumptions C51_incremental.
Print Assumptions C51_truncated_is_eof.
