(** Properties C40 (server packets) and C41 (client packets). *)
From Coq Require Import String.
From Verif Require Import Base Io IoProofs Types Text TypeText TypeTextProofs Utf8 IndexMap Ser Deser DecodeProofs
  Block BlockSpec BlockProofs Incremental Compression CompressionProofs Progress Protocol ProtocolSpec ProtocolProofs
  Props_TypeText Props_Block Props_Compression.
Local Open Scope list_scope.
Local Open Scope N_scope.

(* ===================== C40 ===================== *)

(** Every packet without a block, encoded as a server of the negotiated revision encodes it,
    is decoded to that packet, and exactly its bytes are consumed.  For hello this excludes
    servers whose revision is exactly one at which a field was introduced (the next theorems). *)
Theorem C40_packets : forall C p rest, packet_ok (c_rev C) p ->
  match p with PHello h => h_revision h <> 54058 /\ h_revision h <> 54372 /\ h_revision h <> 54401 | _ => True end ->
  read_packet C (enc_packet p ++ rest) = Ok (p, rest).
Proof. exact dec_packet. Qed.

Lemma write_var_uint_nonempty n : write_var_uint n <> [].
Proof. intros E. pose proof (write_var_uint_length n) as L. rewrite E in L. cbn in L. destruct L as [L _]. inversion L. Qed.
(** A hello of any revision.  The client reads each optional field from servers of a later
    revision than the one that introduced it: at exactly that revision the field is on the wire
    and stays there, in front of the next packet. *)
Theorem C40_hello_at_every_revision : forall C h rest, hello_ok h ->
  read_packet C (enc_packet (PHello h) ++ rest) = Ok (PHello (hello_seen h), hello_unread h ++ rest).
Proof.
  intros C h rest H. cbn [enc_packet]. rewrite <- app_assoc. unfold read_packet. rewrite var_step by reflexivity. cbv iota beta.
  now rewrite (bind_step _ _ _ _ _ (dec_hello_any h rest H)).
Qed.
Theorem C40_hello_unread_iff : forall h, hello_ok h ->
  (hello_unread h = [] <-> h_revision h <> 54058 /\ h_revision h <> 54372 /\ h_revision h <> 54401) /\
  (hello_unread h = [] -> hello_seen h = h).
Proof.
  intros h H. assert (A : forall z, enc_str z <> []) by (intros z; unfold enc_str, write_string; intros X; apply app_eq_nil in X as [X _]; exact (write_var_uint_nonempty _ X)).
  split.
  - unfold hello_unread. destruct (N.eqb_spec (h_revision h) 54058); [split; [intros X; elim (A _ X)|intros (X & _); contradiction]|].
    destruct (N.eqb_spec (h_revision h) 54372); [split; [intros X; elim (A _ X)|intros (_ & X & _); contradiction]|].
    destruct (N.eqb_spec (h_revision h) 54401); [split; [intros X; elim (write_var_uint_nonempty _ X)|intros (_ & _ & X); contradiction]|].
    split; auto.
  - intros U. pose proof (dec_hello_any h [] H) as D. rewrite U in D. cbn [app] in D.
    assert (R : h_revision h <> 54058 /\ h_revision h <> 54372 /\ h_revision h <> 54401).
    { unfold hello_unread in U. destruct (N.eqb_spec (h_revision h) 54058); [elim (A _ U)|].
      destruct (N.eqb_spec (h_revision h) 54372); [elim (A _ U)|]. destruct (N.eqb_spec (h_revision h) 54401); [elim (write_var_uint_nonempty _ U)|]. auto. }
    destruct R as (R1 & R2 & R3). rewrite (dec_hello h [] H R1 R2 R3) in D. congruence.
Qed.

(** Packets carrying a block, given that the block's bytes are decoded (C16, C20). *)
Theorem C40_data_packets : forall C table body b rest, name_fits table ->
  (forall ext, read_payload C (body ++ ext) = Ok (b, ext)) ->
  read_packet C (enc_data 1 table body ++ rest) = Ok (PData table b, rest) /\
  read_packet C (enc_data 7 table body ++ rest) = Ok (PTotals table b, rest) /\
  read_packet C (enc_data 8 table body ++ rest) = Ok (PExtremes table b, rest).
Proof.
  intros C table body b rest H1 H2.
  split; [|split]; [apply (dec_data C table body b rest 1 H1 H2)|apply (dec_data C table body b rest 7 H1 H2)|apply (dec_data C table body b rest 8 H1 H2)];
    cbn; auto.
Qed.

Theorem C40_unknown_packet : forall C id rest, 14 <= id -> id < 2 ^ 63 ->
  read_packet C (write_var_uint id ++ rest) = Err EProtocol.
Proof. exact dec_unknown. Qed.

(** Whatever arrives: termination, exact consumption, and a final outcome as soon as the
    packet's bytes are there, independent of how they were split. *)
Theorem C40_terminates : forall C inp, read_packet C inp <> Err EFuel.
Proof. exact packet_terminates. Qed.
Theorem C40_consumes_the_packet : forall C inp p rest, read_packet C inp = Ok (p, rest) ->
  exists used, inp = used ++ rest /\ forall ext, read_packet C (used ++ ext) = Ok (p, ext).
Proof. exact packet_local. Qed.
Theorem C40_incremental : forall C p q, read_packet C p = Err EIo \/
  read_packet C (p ++ q) = match read_packet C p with Ok (x, rest) => Ok (x, rest ++ q) | Err e => Err e | Panic => Panic end.
Proof. exact packet_incremental. Qed.

Definition demo_conn (lz4 : bool) : conn := {| c_codec := demo_codec; c_uni := demo_uni; c_tz := demo_tz; c_lz4 := lz4; c_rev := 54429 |}.
Definition demo_hello (rev : N) : server_hello :=
  {| h_name := txt "ClickHouse"; h_major := 23; h_minor := 8; h_revision := rev;
     h_timezone := Some (txt "UTC"); h_display := if 54372 <=? rev then Some (txt "ch1") else None; h_patch := if 54401 <=? rev then 2 else rev |}.

(** Finding: a server of revision exactly 54058 (54372, 54401) sends a field this client
    does not read, so the next packet is decoded from the middle of the hello. *)
Theorem C40_hello_boundary_refuted :
  forall rev, In rev [54058; 54372; 54401] ->
  hello_ok (demo_hello rev) /\
  exists h rest, read_packet (demo_conn false) (enc_packet (PHello (demo_hello rev))) = Ok (PHello h, rest) /\ rest <> [].
Proof.
  assert (F : forall s, In s [txt "ClickHouse"; txt "UTC"; txt "ch1"] -> name_fits s).
  { intros s [<-|[<-|[<-|[]]]]; (split; [reflexivity|vm_compute; discriminate]). }
  intros rev [<-|[<-|[<-|[]]]]; (split; [
    repeat split; try (apply F; cbn; auto; fail); try reflexivity; try (vm_compute; discriminate); try (intros H; vm_compute in H; discriminate H)
  | vm_compute; eexists; eexists; (split; [reflexivity|discriminate])]).
Qed.

(** Finding: the log packet panics. *)
Theorem C40_log_packet_panics : forall C rest, read_packet C (write_var_uint 10 ++ rest) = Panic.
Proof. intros C rest. unfold read_packet. now rewrite var_step. Qed.

(** Finding: an exception announcing a nested one is returned without reading it, so the
    nested exception's bytes are taken for packets. *)
Theorem C40_nested_exception_not_read : forall C e inner rest, exception_ok e -> x_nested e = true ->
  read_packet C (write_var_uint 2 ++ enc_exception e ++ enc_exception inner ++ rest) = Ok (PException e, enc_exception inner ++ rest).
Proof.
  intros C e inner rest H _. rewrite app_assoc. exact (dec_packet C (PException e) (enc_exception inner ++ rest) H I).
Qed.

Example C40_nonvacuous :
  packet_ok 54429 (PHello (demo_hello 54460)) /\
  packet_ok 54429 (PTablesStatus [(txt "d", [(txt "a", {| ts_replicated := true; ts_delay := 7 |}); (txt "b", {| ts_replicated := false; ts_delay := 0 |})])]) /\
  read_packet (demo_conn false) (enc_packet (PHello (demo_hello 54460)) ++ [1]) = Ok (PHello (demo_hello 54460), [1]) /\
  (exists b', read_packet (demo_conn false) (enc_data 1 [] demo_block_bytes ++ [5]) = Ok (PData [] b', [5]) /\ b_types b' = b_types demo_block).
Proof.
  assert (F : forall s, In s [txt "ClickHouse"; txt "UTC"; txt "ch1"; txt "d"; txt "a"; txt "b"] -> name_fits s).
  { intros s [<-|[<-|[<-|[<-|[<-|[<-|[]]]]]]]; (split; [reflexivity|vm_compute; discriminate]). }
  split; [|split; [|split]].
  - repeat split; try (apply F; cbn; auto; fail); try reflexivity; try (vm_compute; discriminate); try (intros H; vm_compute in H; discriminate H).
  - split; [vm_compute; discriminate|]. split; [|split].
    + repeat (apply Forall_cons || apply Forall_nil); (repeat split; try reflexivity; try (vm_compute; discriminate)).
    + repeat (apply NoDup_cons || apply NoDup_nil). intros [].
    + repeat (apply Forall_cons || apply Forall_nil). split; [|discriminate].
      repeat (apply NoDup_cons || apply NoDup_nil); vm_compute; intuition discriminate.
  - vm_compute. reflexivity.
  - vm_compute. eexists. split; reflexivity.
Qed.

Print Assumptions C40_packets.
Print Assumptions C40_hello_at_every_revision.
Print Assumptions C40_hello_unread_iff.
Print Assumptions C40_data_packets.
Print Assumptions C40_unknown_packet.
Print Assumptions C40_terminates.
Print Assumptions C40_consumes_the_packet.
Print Assumptions C40_incremental.
Print Assumptions C40_hello_boundary_refuted.
Print Assumptions C40_log_packet_panics.
Print Assumptions C40_nested_exception_not_read.

(* ===================== C41 ===================== *)

(** A server of any revision [R] that follows the protocol recovers, from the bytes sent
    for a query, exactly the id, the client information of its revision, empty settings, the
    stage, the compression flag and the text, with nothing left over. *)
Theorem C41_query_packet : forall R q rest, query_ok q ->
  exists body, send_query R q = write_var_uint 1 ++ body /\
  server_query R 54448 (body ++ rest) =
  Ok ((q_id q, (if 54032 <=? R then Some (info_seen R (q_info q)) else None), [], q_stage q,
       (if q_lz4 q then 1 else 0), q_text q), rest).
Proof. exact server_reads_query. Qed.

(** In particular the packets this client builds, for any query text within the limits. *)
Theorem C41_client_query : forall C R id text rest, name_fits id -> name_fits text ->
  exists body, send_query R (client_query C id text) = write_var_uint 1 ++ body /\
  server_query R 54448 (body ++ rest) = Ok ((id,
    (if 54032 <=? R then Some {| ci_kind := 1; ci_user := []; ci_query_id := []; ci_address := txt "0.0.0.0:0"; ci_os_user := [];
        ci_hostname := txt "localhost"; ci_client := txt "ClickHouseclient"; ci_major := 22; ci_minor := 9; ci_tcp_version := 54448; ci_quota := [];
        ci_depth := (if 54448 <=? R then 1 else 0); ci_patch := (if 54401 <=? R then 1 else 54448) |} else None),
    [], 2, (if c_lz4 C then 1 else 0), text), rest).
Proof.
  intros C R id text rest H1 H2.
  destruct (server_reads_query R (client_query C id text) rest) as (body & E1 & E2).
  - split; [exact H1|]. split; [|split; [reflexivity|exact H2]].
    repeat split; try reflexivity; try (vm_compute; discriminate). now left.
  - exists body. split; [exact E1|]. rewrite E2. unfold info_seen. cbn [client_query q_id q_info q_stage q_lz4 q_text ci_kind ci_user ci_query_id ci_address ci_os_user ci_hostname ci_client ci_major ci_minor ci_tcp_version ci_quota ci_depth ci_patch].
    destruct (54060 <=? R); reflexivity.
Qed.

Theorem C41_hello_packet : forall db user password rest, name_fits db -> name_fits user -> name_fits password ->
  exists body, send_hello db user password = write_var_uint 0 ++ body /\
  server_reads_hello (body ++ rest) = Ok ((txt "ClickHouse Rust-Klickhouse 0.15.2", 22, 9, 54448, db, user, password), rest).
Proof. exact server_reads_client_hello. Qed.

(** Data packets: id, empty name, then the block bytes as in C16 or the frame as in C20. *)
Theorem C41_data_packet : forall C b name bytes, send_data C b name false = Ok bytes ->
  exists body, bytes = write_var_uint 2 ++ enc_str name ++ body /\
  (if c_lz4 C then (raw <- write_block (c_tz C) (c_rev C) b ;; frame (c_codec C) raw) else write_block (c_tz C) (c_rev C) b) = Ok body.
Proof.
  intros C b name bytes H. unfold send_data in H. inv_bind H. assert (INJ : forall x y : list N, Ok x = Ok y -> x = y) by (intros x y K; now injection K).
  apply INJ in H. exists a. split; [symmetry; exact H|].
  unfold write_compressed in E. exact E.
Qed.

Example C41_nonvacuous : query_ok (client_query (demo_conn true) (txt "q1") (txt "SELECT 1")) /\
  match server_query 54429 54448 (tl (send_query 54429 (client_query (demo_conn true) (txt "q1") (txt "SELECT 1")))) with
  | Ok ((id, Some i, s, stage, c, q), rest) => id = txt "q1" /\ ci_patch i = 1 /\ ci_depth i = 0 /\ stage = 2 /\ c = 1 /\ q = txt "SELECT 1" /\ rest = []
  | _ => False
  end.
Proof.
  split.
  - repeat split; try reflexivity; try (vm_compute; discriminate). now left.
  - vm_compute. repeat split.
Qed.

Print Assumptions C41_query_packet.
Print Assumptions C41_client_query.
Print Assumptions C41_hello_packet.
Print Assumptions C41_data_packet.
