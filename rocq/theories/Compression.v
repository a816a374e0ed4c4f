(** Model of klickhouse/src/compression.rs and of the framing in internal_client_out.rs
    167-184.  LZ4 (liblz4) and CityHash (cityhash_rs) are parameters. *)
From Verif Require Import Base Io Types Text TypeText Block.

(** The two external functions.  [lz4_c]: LZ4_compress_default into a buffer of the size
    compress_block allocates ([None] = non-positive result).  [lz4_d data capacity]:
    LZ4_decompress_safe ([None] = negative result). *)
Record codec := {
  city : list N -> N;                        (* cityhash_102_128 : u128 *)
  lz4_c : list N -> option (list N);
  lz4_d : list N -> N -> option (list N) }.

(** internal_client_in.rs 21 *)
Definition MAX_COMPRESSION_SIZE : N := 1073741824. (* 0x40000000 *)
(** protocol.rs 189-196 [CompressionMethod::byte] for LZ4 *)
Definition LZ4_BYTE : N := 130. (* 0x82 *)

(** compression.rs 16-41 [compress_block] after the block is written to [raw].  Simplified:
    the [as i32] casts are not modelled, so this is for payloads below 2^31 bytes. *)
Definition compress_payload (K : codec) (raw : list N) : res (list N) :=
  match lz4_c K raw with Some out => Ok out | None => Err EProtocol end.

(** compression.rs 43-65 [decompress_block] *)
Definition decompress_block (K : codec) (data : list N) (decompressed_size : N) : res (list N) :=
  match lz4_d K data (decompressed_size + 1) with Some out => Ok out | None => Err EProtocol end.

(** internal_client_out.rs 168-184 [compress_data] on an already written payload: header and
    compressed bytes are hashed, the hash goes first, high word before low word. *)
Definition frame_body (byte : N) (out : list N) (raw_size : N) : list N :=
  [byte] ++ le_bytes 4 (lenN out + 9) ++ le_bytes 4 raw_size ++ out.
Definition frame (K : codec) (raw : list N) : res (list N) :=
  out <- compress_payload K raw ;;
  let body := frame_body LZ4_BYTE out (lenN raw) in
  Ok (le_bytes 8 (city K body / 2 ^ 64) ++ le_bytes 8 (city K body mod 2 ^ 64) ++ body).

(** compression.rs 67-106 [read_compressed_blob] *)
Definition read_blob (K : codec) : rd (list N) :=
  hi <~ read_le 8 ;;;
  lo <~ read_le 8 ;;;
  type_byte <~ read_le 1 ;;;
  if negb (type_byte =? LZ4_BYTE) then rerr EProtocol else
  compressed_size <~ read_le 4 ;;;
  if MAX_COMPRESSION_SIZE <? compressed_size then rerr EProtocol
  else if compressed_size <? 9 then rerr EProtocol else
  decompressed_size <~ read_le 4 ;;;
  data <~ read_exact (compressed_size - 9) ;;;
  if negb (city K ([type_byte] ++ le_bytes 4 compressed_size ++ le_bytes 4 decompressed_size ++ data) =? hi * 2 ^ 64 + lo)
  then rerr EProtocol
  else lift (decompress_block K data decompressed_size).

(* ---------------- the poll-driven reader ---------------- *)

(** compression.rs 111-117.  [arrived] is what the underlying reader can deliver now, [closed]
    whether it will never deliver more.  [Reading] = block_reading_future is set (and inner
    taken); [Idle] = inner is present; [Failed] = neither (a frame was rejected).
    [pending] = decompressed[position..]. *)
Inductive phase := Idle | Reading | Failed.
Record dreader := { d_arrived : list N; d_closed : bool; d_phase : phase; d_pending : list N }.
Definition d_new : dreader := {| d_arrived := []; d_closed := false; d_phase := Idle; d_pending := [] |}.

Inductive polled := PPending | PReady (delivered : list N) | PError.

(** compression.rs 130-152 [run_decompression] with the future set: the future owns the
    bytes it has consumed, so polling it is re-running [read_blob] on everything that has
    arrived; it waits when bytes are missing. *)
Definition poll_future (K : codec) (s : dreader) : polled * dreader :=
  match read_blob K (d_arrived s) with
  | Ok (value, rest) =>
      (PReady [], {| d_arrived := rest; d_closed := d_closed s; d_phase := Idle; d_pending := value |})
  | Err EIo => if d_closed s
               then (PError, {| d_arrived := d_arrived s; d_closed := true; d_phase := Failed; d_pending := d_pending s |})
               else (PPending, {| d_arrived := d_arrived s; d_closed := false; d_phase := Reading; d_pending := d_pending s |})
  | _ => (PError, {| d_arrived := d_arrived s; d_closed := d_closed s; d_phase := Failed; d_pending := d_pending s |})
  end.

(** compression.rs 175-192: the [while position >= len] loop and the copy of at most [n]
    bytes.  Every frame takes at least one byte off [arrived], so [fuel] suffices. *)
Fixpoint poll_loop (K : codec) (fuel : nat) (s : dreader) (n : N) : polled * dreader :=
  match d_pending s with
  | [] =>
      match fuel with
      | O => (PError, s)
      | S f => match poll_future K s with
               | (PReady _, s') => poll_loop K f s' n
               | other => other
               end
      end
  | _ => (PReady (firstn (N.to_nat n) (d_pending s)),
          {| d_arrived := d_arrived s; d_closed := d_closed s; d_phase := Idle;
             d_pending := skipn (N.to_nat n) (d_pending s) |})
  end.

(** compression.rs 156-196 [poll_read] with room for [n] bytes. *)
Definition poll_read (K : codec) (s : dreader) (n : N) : polled * dreader :=
  if n =? 0 then (PReady [], s) else
  match d_phase s with
  | Failed => (PError, s)
  | Idle => poll_loop K (S (length (d_arrived s))) s n
  | Reading => match poll_future K s with
               | (PReady _, s') => poll_loop K (S (length (d_arrived s'))) s' n
               | other => other
               end
  end.

(** What can happen to the reader: bytes arrive, the peer closes, somebody polls. *)
Inductive event := Arrive (bs : list N) | Close | Poll (n : N).
Definition d_step (K : codec) (s : dreader) (e : event) : list polled * dreader :=
  match e with
  | Arrive bs => ([], {| d_arrived := d_arrived s ++ bs; d_closed := d_closed s; d_phase := d_phase s; d_pending := d_pending s |})
  | Close => ([], {| d_arrived := d_arrived s; d_closed := true; d_phase := d_phase s; d_pending := d_pending s |})
  | Poll n => let '(p, s') := poll_read K s n in ([p], s')
  end.
Fixpoint d_run (K : codec) (s : dreader) (es : list event) : list polled * dreader :=
  match es with
  | [] => ([], s)
  | e :: r => let '(o, s') := d_step K s e in let '(os, s'') := d_run K s' r in (o ++ os, s'')
  end.
Definition delivered (os : list polled) : list N :=
  flat_map (fun p => match p with PReady bs => bs | _ => [] end) os.
Definition arrivals (es : list event) : list N :=
  flat_map (fun e => match e with Arrive bs => bs | _ => [] end) es.

(** internal_client_out.rs 210-219 [send_data] with LZ4, the block part *)
Definition write_compressed (K : codec) (D : tzdb) (rev : N) (b : block) : res (list N) :=
  raw <- write_block D rev b ;; frame K raw.
(** internal_client_in.rs 52-60 [decompress_data]: Block::read pulls decompressed bytes frame
    by frame through the reader above; a rejected frame surfaces as an I/O error
    (compression.rs 147-150); what the block does not use of the last frame is dropped with
    the reader.  [raw] is what has been decompressed so far.  Restarting Block::read on the
    longer prefix is the same as suspending it ([block_incremental]). *)
Fixpoint read_frames (K : codec) (U : unicode) (D : tzdb) (rev : N) (fuel : nat) (raw inp : list N) : res (block * list N) :=
  match read_block U D rev raw with
  | Ok (b, _) => Ok (b, inp)
  | Err EIo =>
      match fuel with
      | O => Err EFuel
      | S f => match read_blob K inp with
               | Ok (v, rest) => read_frames K U D rev f (raw ++ v) rest
               | Err _ => Err EIo
               | Panic => Panic
               end
      end
  | Err e => Err e
  | Panic => Panic
  end.
Definition read_compressed (K : codec) (U : unicode) (D : tzdb) (rev : N) : rd block :=
  fun inp => read_frames K U D rev (S (length inp)) [] inp.
