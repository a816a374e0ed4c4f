(** The layout of one compressed frame (independent of the library's reader and writer), and
    proofs that the reader accepts every such frame and the writer produces one. *)
From Verif Require Import Base Io IoProofs Types Text TypeText Block BlockSpec WireSpec WireDecode WireEncode Compression CompressionProofs.

(* ---------------- specification ---------------- *)

(** A frame for [raw]: the 128-bit hash of everything after it (high word first), the method
    byte 0x82 (LZ4), the size of what follows the hash, the size of [raw], the compressed
    bytes.  [compressed] says which byte strings decompress to [raw]. *)
Definition frame_wire (hash : list N -> N) (compressed : list N -> list N -> Prop) (raw bs : list N) : Prop :=
  exists hi lo size raw_size out,
    let body := [130] ++ size ++ raw_size ++ out in
    word 8 (hash body / 2 ^ 64) hi /\ word 8 (hash body mod 2 ^ 64) lo /\
    word 4 (1 + 4 + 4 + lenN out) size /\ word 4 (lenN raw) raw_size /\
    1 + 4 + 4 + lenN out <= 2 ^ 30 /\ compressed raw out /\
    bs = hi ++ lo ++ body.

(** Decompression of [out] gives [raw] when there is exactly one spare byte of room. *)
Definition unpacks (K : codec) (raw out : list N) : Prop := lz4_d K out (lenN raw + 1) = Some raw.

(* ---------------- reading ---------------- *)
Lemma word_bytes n x bs : word (N.of_nat n) x bs -> le_bytes n x = bs.
Proof.
  intros (L & F & <-). rewrite number_le_val. replace n with (length bs) by (unfold lenN in L; lia). now apply le_bytes_val.
Qed.

Theorem frame_wire_read K raw bs rest : frame_wire (city K) (unpacks K) raw bs ->
  read_blob K (bs ++ rest) = Ok (raw, rest).
Proof.
  intros (hi & lo & size & rsz & out & Hh & Hl & Hs & Hr & Hb & Hc & ->). cbv zeta in *. set (body := [130] ++ size ++ rsz ++ out) in *.
  unfold read_blob. rewrite <- !app_assoc.
  unfold rdbind at 1. rewrite (read_word 8 8 _ hi _ eq_refl Hh). cbn [rbind].
  unfold rdbind at 1. rewrite (read_word 8 8 _ lo _ eq_refl Hl). cbn [rbind].
  unfold body at 3. rewrite <- !app_assoc. unfold rdbind at 1.
  rewrite (read_word 1 1 130 [130] _ eq_refl) by (repeat split; repeat constructor). cbn [rbind].
  change (130 =? LZ4_BYTE) with true. cbn [negb].
  unfold rdbind at 1. rewrite (read_word 4 4 _ size _ eq_refl Hs). cbn [rbind].
  unfold MAX_COMPRESSION_SIZE. change 1073741824 with (2 ^ 30).
  destruct (N.ltb_spec (2 ^ 30) (1 + 4 + 4 + lenN out)); [lia|]. destruct (N.ltb_spec (1 + 4 + 4 + lenN out) 9); [lia|].
  unfold rdbind at 1. rewrite (read_word 4 4 _ rsz _ eq_refl Hr). cbn [rbind].
  unfold rdbind at 1. rewrite read_exact_app' by lia. cbn [rbind].
  rewrite (word_bytes 4 _ size Hs), (word_bytes 4 _ rsz Hr). fold body.
  replace (city K body / 2 ^ 64 * 2 ^ 64 + city K body mod 2 ^ 64) with (city K body).
  - rewrite N.eqb_refl. cbn [negb]. unfold lift, decompress_block. rewrite Hc. reflexivity.
  - assert (P : 2 ^ 64 <> 0) by (vm_compute; discriminate). generalize dependent (2 ^ 64). intros P; intros. rewrite N.mul_comm. now apply N.div_mod.
Qed.

(* ---------------- writing ---------------- *)
Theorem frame_wire_write K raw out : codec_ok K -> lz4_c K raw = Some out -> lenN raw < 2 ^ 32 -> lenN out + 9 <= 2 ^ 30 ->
  exists bs, frame K raw = Ok bs /\ frame_wire (city K) (unpacks K) raw bs.
Proof.
  intros HK Hc Hr Ho. unfold frame, compress_payload. rewrite Hc. cbn [rbind]. set (body := frame_body _ _ _).
  destruct (hash_split K body HK) as (H1 & H2 & _). eexists. split; [reflexivity|].
  exists (le_bytes 8 (city K body / 2 ^ 64)), (le_bytes 8 (city K body mod 2 ^ 64)), (le_bytes 4 (lenN out + 9)), (le_bytes 4 (lenN raw)), out.
  cbv zeta. change ([130] ++ le_bytes 4 (lenN out + 9) ++ le_bytes 4 (lenN raw) ++ out) with body.
  replace (1 + 4 + 4 + lenN out) with (lenN out + 9) by lia.
  split; [apply (word_le 8 _ 64 eq_refl H1)|]. split; [apply (word_le 8 _ 64 eq_refl H2)|].
  split; [apply (word_le 4 _ 32 eq_refl); lia|]. split; [apply (word_le 4 _ 32 eq_refl Hr)|].
  split; [lia|]. split; [|reflexivity]. unfold unpacks. apply (proj1 HK raw out); [exact Hc|lia].
Qed.
