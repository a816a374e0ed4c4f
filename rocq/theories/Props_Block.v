(** Properties C16-C19 and C51: blocks. *)
From Coq Require Import String Ascii.
From Verif Require Import Incremental.
From Verif Require Import Base Io IoProofs Types Text TypeText TypeTextProofs TypeTextProofs2 Utf8 IndexMap Ser Deser ColumnSpec
  ColumnProofs ColumnRoundtrip LowCardProofs WireProofs DecodeProofs DecodeProofs2 Block BlockSpec BlockProofs Props_TypeText.

Local Open Scope list_scope.
(* ===================== C16 ===================== *)

(** Every well-formed block (distinct names, declared lengths, valid printable types, sendable
    values) is written, and read back with the same rows, types, order and normalised data;
    the bytes after it are untouched. *)
Theorem C16_block_roundtrip : forall U D rev b, tzdb_ok D -> block_ok U D b ->
  (- 2 ^ 31 <= bucket_num (b_info b) < 2 ^ 31)%Z ->
  exists bytes b', write_block D rev b = Ok bytes /\
    (forall rest, read_block U D rev (bytes ++ rest) = Ok (b', rest)) /\
    b_rows b' = b_rows b /\ b_types b' = b_types b /\ im_keys (b_data b') = im_keys (b_types b) /\
    (forall k t vs, In (k, t) (b_types b) -> im_get k (b_data b) = Some vs ->
       im_get k (b_data b') = Some (map (normal t) vs)) /\
    b_info b' = sent_info rev (b_info b).
Proof. exact block_roundtrip. Qed.

Definition demo_block : block :=
  {| b_info := default_info; b_rows := 2;
     b_types := [(txt "id", TUInt I64); (txt "tags", TArray (TLowCard TString))];
     b_data := [(txt "tags", [VArray [VString [97]; VString [98]; VString [97]]; VArray []]);
                (txt "id", [VUInt I64 1; VUInt I64 500])] |}.
Definition demo_block_bytes : list N :=
  match write_block demo_tz 54429 demo_block with Ok bs => bs | _ => [] end.

(** The block is well formed although its data is stored in another order than its types. *)
Example C16_nonvacuous : block_ok demo_uni demo_tz demo_block /\
  match read_block demo_uni demo_tz 54429 (demo_block_bytes ++ [1; 2; 3]) with
  | Ok (b', rest) => b_types b' = b_types demo_block /\ rest = [1; 2; 3] /\
      b_data b' = [(txt "id", [VUInt I64 1; VUInt I64 500]);
                   (txt "tags", [VArray [VString [97]; VString [98]; VString [97]]; VArray []])]
  | _ => False
  end.
Proof.
  split; [|vm_compute; auto].
  split; [|split; [|split; [|split; reflexivity]]].
  - repeat (apply NoDup_cons || apply NoDup_nil); vm_compute; intuition discriminate.
  - repeat (apply NoDup_cons || apply NoDup_nil); vm_compute; intuition discriminate.
  - intros k t [[= <- <-]|[[= <- <-]|[]]]; eexists; (split; [reflexivity|]);
      (split; [split; [reflexivity|vm_compute; discriminate]|]);
      (split; [split; [reflexivity|vm_compute; discriminate]|]);
      (split; [exact I|]); (split; [reflexivity|]); intros _; (split; [reflexivity|]);
      (split; [repeat (apply Forall_cons || apply Forall_nil); reflexivity|]).
    all: unfold fits; fold fits; unfold within;
      repeat match goal with
             | |- _ /\ _ => split
             | |- Forall _ _ => cbn [flat_map elems app]; repeat (apply Forall_cons || apply Forall_nil)
             | |- _ => exact I || (vm_compute; (discriminate || reflexivity))
             end.
Qed.

Print Assumptions C16_block_roundtrip.

(* ===================== C17 ===================== *)

(** What is read back: the bucket number sent, and the overflow flag as set. *)
Theorem C17_info_read_back : forall i rest, (- 2 ^ 31 <= bucket_num i < 2 ^ 31)%Z ->
  read_info (write_info i ++ rest) = Ok ({| is_overflows := true; bucket_num := bucket_num i |}, rest).
Proof. exact read_write_info. Qed.
(** So the bucket number always survives, and the overflow flag when it is set. *)
Theorem C17_info_roundtrip : forall i rest, (- 2 ^ 31 <= bucket_num i < 2 ^ 31)%Z ->
  exists i', read_info (write_info i ++ rest) = Ok (i', rest) /\ bucket_num i' = bucket_num i /\
             (is_overflows i = true -> i' = i).
Proof.
  intros i rest Hb. eexists. split; [apply (read_write_info i rest Hb)|]. split; [reflexivity|].
  destruct i as [o n]. cbn. now intros ->.
Qed.

(** Finding: a cleared overflow flag (the default) is written as 2 and always read back as set. *)
Theorem C17_overflow_flag_refuted : forall n rest, (- 2 ^ 31 <= n < 2 ^ 31)%Z ->
  read_info (write_info {| is_overflows := false; bucket_num := n |} ++ rest) =
  Ok ({| is_overflows := true; bucket_num := n |}, rest).
Proof. intros n rest H. exact (read_write_info {| is_overflows := false; bucket_num := n |} rest H). Qed.

(** An info in which the server sent no fields says: no overflow, no bucket. *)
Theorem C17_info_without_fields : forall rest, read_info (0 :: rest) = Ok ({| is_overflows := false; bucket_num := -1 |}, rest).
Proof. reflexivity. Qed.
(** The block without columns and rows that ends the data of every query and insert: overflow flag
    2, bucket -1, no columns, no rows; just the counts towards revision 0. *)
Theorem C17_end_of_data : forall D rev, write_block D rev {| b_info := default_info; b_rows := 0; b_types := []; b_data := [] |} =
  Ok (if rev =? 0 then [0; 0] else [1; 2; 2; 255; 255; 255; 255; 0; 0; 0]).
Proof. intros D rev. destruct rev; reflexivity. Qed.
Print Assumptions C17_info_without_fields.
Print Assumptions C17_end_of_data.

Example C17_nonvacuous :
  read_info (write_info {| is_overflows := true; bucket_num := -1 |} ++ [9]) = Ok ({| is_overflows := true; bucket_num := -1 |}, [9]).
Proof. reflexivity. Qed.

Print Assumptions C17_info_read_back.
Print Assumptions C17_info_roundtrip.
Print Assumptions C17_overflow_flag_refuted.

(* ===================== C18 ===================== *)

(** If anything was sent, every column that was sent has exactly the declared rows. *)
Theorem C18_no_ragged_block : forall D rev b bytes,
  NoDup (im_keys (b_types b)) -> NoDup (im_keys (b_data b)) -> write_block D rev b = Ok bytes ->
  forall k t vs, In (k, t) (b_types b) -> im_get k (b_data b) = Some vs -> lenN vs = b_rows b.
Proof. exact write_block_lengths. Qed.

(** Conversely one ragged column is enough to make the write fail. *)
Theorem C18_ragged_fails : forall D rev b k t vs,
  NoDup (im_keys (b_types b)) -> NoDup (im_keys (b_data b)) ->
  In (k, t) (b_types b) -> im_get k (b_data b) = Some vs -> lenN vs <> b_rows b ->
  is_ok (write_block D rev b) = false.
Proof.
  intros D rev b k t vs H1 H2 Hi Hv Hr. destruct (write_block D rev b) as [bytes| |] eqn:E; try reflexivity.
  exfalso. apply Hr. exact (write_block_lengths D rev b bytes H1 H2 E k t vs Hi Hv).
Qed.

Example C18_nonvacuous : is_ok (write_block demo_tz 54429 demo_block) = true /\
  write_block demo_tz 54429 {| b_info := default_info; b_rows := 2;
     b_types := b_types demo_block; b_data := [(txt "tags", []); (txt "id", [VUInt I64 1; VUInt I64 2])] |} = Err EProtocol.
Proof. split; reflexivity. Qed.

Print Assumptions C18_no_ragged_block.
Print Assumptions C18_ragged_fails.

(* ===================== C19 ===================== *)

(** [iter_rows]: row [i] holds each column's name and [i]-th value, in column order. *)
Theorem C19_borrowing : forall b, full b ->
  iter_rows b = map (fun i => map (fun e => (fst e, nth i (snd e) VNull)) (b_data b)) (seq 0 (N.to_nat (b_rows b))).
Proof. exact iter_rows_spec. Qed.

(** [take_iter_rows]: the same, with each column's type (LowCardinality unwrapped). *)
Theorem C19_taking : forall b, b_rows b < 2 ^ 57 -> b_data b <> [] -> full b -> typed b ->
  take_iter_rows b = Ok (map (fun i => map (fun e => (fst e, strip_low_cardinality (type_of b (fst e)), nth i (snd e) VNull)) (b_data b))
                             (seq 0 (N.to_nat (b_rows b)))).
Proof. exact take_iter_spec. Qed.

(** [into_iter_rows]: the same, keyed by name. *)
Theorem C19_consuming : forall b, b_data b <> [] -> NoDup (im_keys (b_data b)) -> full b -> typed b ->
  into_iter_rows b = Ok (map (fun i => map (fun e => (fst e, (type_of b (fst e), nth i (snd e) VNull))) (b_data b))
                             (seq 0 (N.to_nat (b_rows b)))).
Proof. exact into_iter_spec. Qed.

(** Finding: with no column the iterators disagree about the number of rows. *)
Theorem C19_no_columns_refuted : exists b, full b /\ typed b /\ b_rows b = 3 /\
  iter_rows b = [[]; []; []] /\ take_iter_rows b = Ok [] /\ into_iter_rows b = Ok [].
Proof.
  exists {| b_info := default_info; b_rows := 3; b_types := []; b_data := [] |}.
  split; [constructor|]. split; [intros k []|]. repeat split.
Qed.

(** Columns of different lengths: the rows stop where the shortest column does. *)
Theorem C19_ragged_borrowing : forall b n, shortest (b_data b) n ->
  iter_rows b = map (fun i => map (fun e => (fst e, nth i (snd e) VNull)) (b_data b)) (seq 0 (Nat.min (N.to_nat (b_rows b)) n)).
Proof. exact iter_rows_ragged. Qed.
Theorem C19_ragged_taking : forall b n, b_rows b < 2 ^ 57 -> shortest (b_data b) n -> typed b ->
  take_iter_rows b = Ok (map (fun i => map (fun e => (fst e, strip_low_cardinality (type_of b (fst e)), nth i (snd e) VNull)) (b_data b)) (seq 0 n)).
Proof. exact take_iter_ragged. Qed.
Theorem C19_ragged_consuming : forall b n, NoDup (im_keys (b_data b)) -> shortest (b_data b) n -> typed b ->
  into_iter_rows b = Ok (map (fun i => map (fun e => (fst e, (type_of b (fst e), nth i (snd e) VNull))) (b_data b)) (seq 0 n)).
Proof. exact into_iter_ragged. Qed.

(** Finding: the borrowing iterator also stops at the declared number of rows, the others do not. *)
Theorem C19_declared_rows_refuted : exists b, typed b /\ NoDup (im_keys (b_data b)) /\ b_data b <> [] /\ b_rows b = 0 /\
  iter_rows b = [] /\ (exists rows, take_iter_rows b = Ok rows /\ length rows = 2%nat) /\ (exists rows, into_iter_rows b = Ok rows /\ length rows = 2%nat).
Proof.
  exists {| b_info := default_info; b_rows := 0; b_types := [(txt "id", TUInt I8)]; b_data := [(txt "id", [VUInt I8 1; VUInt I8 2])] |}.
  split; [intros k [<-|[]]; vm_compute; discriminate|].
  split; [apply NoDup_cons; [intros []|apply NoDup_nil]|]. split; [discriminate|].
  split; [reflexivity|]. split; [reflexivity|]. split; eexists; (split; [vm_compute; reflexivity|reflexivity]).
Qed.

(** Taking rows panics exactly when the block claims so many rows that one 56-byte entry for each cannot
    be addressed (the entries are needed for the columns, but are reserved for the rows). *)
Theorem C19_taking_panics_iff : forall b, typed b -> (take_iter_rows b = Panic <-> 2 ^ 63 <= 56 * b_rows b).
Proof. exact take_iter_panics. Qed.

(** A block put together by the user may have data for a column without a type: these two iterators then panic, and
    these are all the panics. *)
Theorem C19_never_panics_iff : forall b,
  (take_iter_rows b <> Panic <-> typed b /\ 56 * b_rows b < 2 ^ 63) /\ (into_iter_rows b <> Panic <-> typed b).
Proof. intros b. split; [apply take_iter_panics_iff|apply into_iter_panics]. Qed.
Print Assumptions C19_never_panics_iff.
Example C19_untyped_panics :
  let b := {| b_info := default_info; b_rows := 1; b_types := []; b_data := [(txt "id", [VUInt I8 1])] |} in
  ~ typed b /\ take_iter_rows b = Panic /\ into_iter_rows b = Panic /\ iter_rows b = [[(txt "id", VUInt I8 1)]].
Proof. cbv zeta. split; [|repeat split]. intros T. apply (T (txt "id")); [now left|reflexivity]. Qed.

(** No block with a column that was received from a server is like that. *)
Theorem C19_received_countable : forall U D rev inp b rest, read_block U D rev inp = Ok (b, rest) -> b_types b <> [] -> b_rows b <= 2 ^ 30.
Proof. exact read_block_countable. Qed.

(** Finding: a block without columns can be, and it takes the server ten bytes to send one. *)
Theorem C19_huge_count_refuted : exists bytes b, lenN bytes = 10 /\ read_block demo_uni demo_tz 0 bytes = Ok (b, []) /\
  b_types b = [] /\ b_data b = [] /\ typed b /\ take_iter_rows b = Panic.
Proof.
  exists [0; 255; 255; 255; 255; 255; 255; 255; 255; 127].
  match goal with |- exists b, _ /\ ?r = _ /\ _ => destruct r as [[b rest]| |] eqn:E; vm_compute in E; try discriminate E end.
  injection E as <- <-. eexists. split; [reflexivity|]. split; [reflexivity|]. split; [reflexivity|]. split; [reflexivity|]. split; [intros k []|].
  vm_compute. reflexivity.
Qed.

Example C19_received_nonvacuous : exists b, read_block demo_uni demo_tz 0 [1; 2; 1; 97; 5; 85; 73; 110; 116; 56; 7; 9] = Ok (b, []) /\ b_types b <> [] /\
  take_iter_rows b = Ok [[(txt "a", TUInt I8, VUInt I8 7)]; [(txt "a", TUInt I8, VUInt I8 9)]].
Proof. eexists. split; [vm_compute; reflexivity|]. split; [discriminate|]. vm_compute. reflexivity. Qed.

Example C19_ragged_nonvacuous : exists b, shortest (b_data b) 1 /\ typed b /\ NoDup (im_keys (b_data b)) /\ b_rows b = 3 /\
  iter_rows b = [[(txt "a", VUInt I8 1); (txt "b", VUInt I8 4)]].
Proof.
  exists {| b_info := default_info; b_rows := 3; b_types := [(txt "a", TUInt I8); (txt "b", TUInt I8)];
            b_data := [(txt "a", [VUInt I8 1; VUInt I8 2]); (txt "b", [VUInt I8 4])] |}.
  split; [split; [repeat (apply Forall_cons || apply Forall_nil); cbn; lia|apply Exists_cons_tl, Exists_cons_hd; reflexivity]|].
  split; [intros k [<-|[<-|[]]]; vm_compute; discriminate|].
  split; [repeat (apply NoDup_cons || apply NoDup_nil); vm_compute; intuition discriminate|]. split; reflexivity.
Qed.

Example C19_nonvacuous : b_data demo_block <> [] /\ full demo_block /\ typed demo_block /\
  NoDup (im_keys (b_data demo_block)) /\
  iter_rows demo_block = [[(txt "tags", VArray [VString [97]; VString [98]; VString [97]]); (txt "id", VUInt I64 1)];
                          [(txt "tags", VArray []); (txt "id", VUInt I64 500)]].
Proof.
  split; [discriminate|]. split; [repeat (apply Forall_cons || apply Forall_nil); reflexivity|].
  split; [intros k [<-|[<-|[]]]; vm_compute; discriminate|].
  split; [repeat (apply NoDup_cons || apply NoDup_nil); vm_compute; intuition discriminate|reflexivity].
Qed.

Print Assumptions C19_borrowing.
Print Assumptions C19_taking.
Print Assumptions C19_consuming.
Print Assumptions C19_no_columns_refuted.
Print Assumptions C19_ragged_borrowing.
Print Assumptions C19_ragged_taking.
Print Assumptions C19_ragged_consuming.
Print Assumptions C19_declared_rows_refuted.
Print Assumptions C19_taking_panics_iff.
Print Assumptions C19_received_countable.
Print Assumptions C19_huge_count_refuted.

(* ===================== C51: blocks are decoded locally ===================== *)

(** When a block decodes, the bytes left are a suffix of the input, and what follows the
    bytes used has no influence. *)
Theorem C51_block_local : forall U D rev inp b rest, read_block U D rev inp = Ok (b, rest) ->
  exists used, inp = used ++ rest /\ forall ext, read_block U D rev (used ++ ext) = Ok (b, ext).
Proof. exact block_local. Qed.

(** A block cut short is never accepted as some other block: the end of the input is reported. *)
Theorem C51_truncated_fails : forall U D rev used p q rest b,
  read_block U D rev (used ++ rest) = Ok (b, rest) -> used = p ++ q -> q <> [] -> read_block U D rev p = Err EIo.
Proof. intros U D rev used p q rest b. exact (truncated_eio _ (block_local U D rev) (block_incremental U D rev) used p q rest b). Qed.

Theorem C51_terminates : forall U D rev inp, read_block U D rev inp <> Err EFuel.
Proof. exact block_terminates. Qed.

Example C51_nonvacuous : demo_block_bytes <> [] /\
  is_ok (read_block demo_uni demo_tz 54429 demo_block_bytes) = true /\
  read_block demo_uni demo_tz 54429 (removelast demo_block_bytes) = Err EIo.
Proof. split; [discriminate|]. split; reflexivity. Qed.

Print Assumptions C51_block_local.
Print Assumptions C51_truncated_fails.
Print Assumptions C51_terminates.
