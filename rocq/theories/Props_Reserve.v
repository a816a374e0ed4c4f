(** Property C86: how much memory a reply makes the client reserve. *)
From Coq Require Import String Lia.
From Verif Require Import Base Io Types Ser Deser Text TypeText Utf8 Block Compression Reserve ReserveSpec ReserveProofs Props_TypeText Props_Compression.
Local Open Scope list_scope.
Local Open Scope N_scope.

(** Whatever the bytes, no reservation made while a block is read asks for more than 2^30 entries,
    unless the number is a length or an arity written in a type that is spelled out in those
    bytes. *)
Theorem C86_block_reservations : forall U D revision inp,
  Forall (fun n => n <= 2 ^ 30 \/ exists t, announces U D inp t /\ In n (stated t)) (block_reserved U D revision inp).
Proof. exact block_announced. Qed.

(** The same for one column of a known type, for any claimed number of rows. *)
Theorem C86_column_reservations : forall t rows inp,
  Forall (fun n => n <= 2 ^ 30 \/ In n (stated t)) (reserved t rows inp).
Proof. exact reserved_within. Qed.

(** And their number is at most a factor of the type times the number of bytes there are to read,
    whatever numbers of rows, keys and elements those bytes claim. *)
Theorem C86_how_many : forall t rows inp,
  (grabs (reserved t rows inp) <= weight t * (1 + length inp))%nat.
Proof.
  intros t rows inp. pose proof (reserved_meters t rows inp) as M. etransitivity; [exact M|]. apply Nat.mul_le_mono_l.
  unfold spent. destruct (deser t rows inp) as [[v r]|e|]; lia.
Qed.
(** After a column has been read, only the bytes it used count. *)
Theorem C86_how_many_read : forall t rows inp vs used rest,
  inp = used ++ rest -> deser t rows inp = Ok (vs, rest) ->
  (grabs (reserved t rows inp) <= weight t * (1 + length used))%nat.
Proof.
  intros t rows inp vs used rest -> E. pose proof (reserved_meters t rows (used ++ rest)) as M. rewrite E in M. cbn [spent] in M.
  rewrite app_length in M. replace (length used + length rest - length rest)%nat with (length used) in M by lia. exact M.
Qed.

(** A compressed frame: at most 4 GiB at a time. *)
Theorem C86_frames : forall K inp, bytes_ok inp -> Forall (fun n => n <= 2 ^ 32) (blob_reserved K inp).
Proof. exact blob_bounded. Qed.

(** Exactly: of a complete frame the compressed size is reserved, and what the frame says it
    unpacks to only if its checksum is right. *)
Theorem C86_frame_exact : forall K hi lo c d data rest, hi < 256 ^ 8 -> lo < 256 ^ 8 -> c < 256 ^ 4 -> d < 256 ^ 4 ->
  9 <= c <= 2 ^ 30 -> lenN data = c - 9 ->
  blob_reserved K (le_bytes 8 hi ++ le_bytes 8 lo ++ [130] ++ le_bytes 4 c ++ le_bytes 4 d ++ data ++ rest)
    = if city K ([130] ++ le_bytes 4 c ++ le_bytes 4 d ++ data) =? hi * 2 ^ 64 + lo then [c; d + 1] else [c].
Proof.
  intros K hi lo c d data rest H L C D [C1 C2] LD. unfold blob_reserved.
  rewrite (read_le_app 8 hi) by exact H. cbn [after]. rewrite (read_le_app 8 lo) by exact L. cbn [after].
  change [130] with (le_bytes 1 130). rewrite (read_le_app 1 130) by (vm_compute; reflexivity). cbn [after].
  change (negb (130 =? LZ4_BYTE)) with false. cbv iota. rewrite (read_le_app 4 c) by exact C. cbn [after].
  replace (MAX_COMPRESSION_SIZE <? c) with false by (symmetry; apply N.ltb_ge; exact C2).
  replace (c <? 9) with false by (symmetry; apply N.ltb_ge; exact C1).
  rewrite (read_le_app 4 d) by exact D. cbn [after]. rewrite read_exact_app' by (symmetry; exact LD). cbn [after].
  change (le_bytes 1 130) with [130]. destruct (city K _ =? _); reflexivity.
Qed.

(** But the reservations do not follow the size of the reply: a block of 13 bytes (one column of
    type UInt8 and a claim of 2^30 rows) reserves 2^30 values, *)
Definition short_block : list N := write_var_uint 1 ++ write_var_uint (2 ^ 30) ++ write_text [] ++ write_text (txt "UInt8").
Theorem C86_in_proportion_refuted : exists inp,
  lenN inp = 13 /\ In (2 ^ 30) (block_reserved demo_uni demo_tz 0 inp).
Proof.
  exists short_block. split; [reflexivity|]. unfold block_reserved. cbn [N.ltb N.compare]. unfold rret. cbn [after].
  replace (read_var_uint short_block) with (@Ok (N * list N) (1, skipn 1 short_block)) by reflexivity. cbn [after].
  replace (read_var_uint (skipn 1 short_block)) with (@Ok (N * list N) (2 ^ 30, skipn 6 short_block)) by reflexivity. cbn [after].
  change (N.to_nat 1) with 1%nat. cbn [each]. apply in_or_app. left.
  match goal with |- In _ ?c => assert (E : c = [5; 2 ^ 30]) by (vm_compute; reflexivity); rewrite E end. right. now left.
Qed.
(** 36 bytes ask for a string of 9 * 10^18 bytes, which no machine has, *)
Definition fixed_block : list N := write_var_uint 1 ++ write_var_uint 1 ++ write_text [] ++ write_text (txt "FixedString(9000000000000000000)").
Theorem C86_fixed_string_refuted : exists inp,
  lenN inp = 36 /\ In 9000000000000000000 (block_reserved demo_uni demo_tz 0 inp).
Proof. exists fixed_block. split; [reflexivity|]. vm_compute. tauto. Qed.
(** and a frame of 25 bytes (a header and no data; the checksum is the sender's to choose) reserves 4 GiB. *)
Theorem C86_frame_refuted : exists K inp, lenN inp = 25 /\ In (2 ^ 32) (blob_reserved K inp).
Proof.
  exists {| city := fun _ => 0; lz4_c := fun _ => None; lz4_d := fun _ _ => None |},
    (repeat 0 16 ++ [LZ4_BYTE] ++ le_bytes 4 9 ++ le_bytes 4 (2 ^ 32 - 1)). split; [reflexivity|]. vm_compute. tauto.
Qed.

(** A nested column with its reservations: an array of nullable strings, two rows, and a cut-off
    dictionary. *)
Example C86_nonvacuous :
  reserved (TArray (TNullable TString)) 2 (le_bytes 8 1 ++ le_bytes 8 3 ++ [0; 1; 0] ++ [2; 104; 105] ++ [0] ++ [1; 33])
    = [3; 3; 2; 1; 2] /\
  weight (TArray (TNullable TString)) = 4%nat /\
  reserved (TLowCard (TFixedString 3)) 5 (le_bytes 8 (HAS_ADDITIONAL_KEYS_BIT + TUINT8) ++ le_bytes 8 1 ++ [97; 98; 99] ++ le_bytes 8 4 ++ [0; 0; 0; 0]) = [1; 3; 4] /\
  stated (TLowCard (TFixedString 3)) = [3] /\ announces demo_uni demo_tz fixed_block (TFixedString 9000000000000000000).
Proof.
  split; [vm_compute; reflexivity|]. split; [reflexivity|]. split; [vm_compute; reflexivity|]. split; [reflexivity|].
  exists (firstn 4 fixed_block), (utf8 (txt "FixedString(9000000000000000000)")), (txt "FixedString(9000000000000000000)"), [].
  split; [vm_compute; reflexivity|]. split; vm_compute; reflexivity.
Qed.

Print Assumptions C86_block_reservations.
Print Assumptions C86_column_reservations.
Print Assumptions C86_how_many.
Print Assumptions C86_how_many_read.
Print Assumptions C86_frames.
Print Assumptions C86_frame_exact.
Print Assumptions C86_in_proportion_refuted.
Print Assumptions C86_fixed_string_refuted.
Print Assumptions C86_frame_refuted.
