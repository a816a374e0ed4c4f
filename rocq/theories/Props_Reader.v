(** Property C30: packets are read whole. *)
From Coq Require Import String.
From Verif Require Import Base Types Text Utf8 Block BlockSpec Progress Protocol ProtocolSpec ProtocolProofs ReaderLoop ReaderLoopProofs
  ReaderSpec ReaderExact Props_Protocol.
Local Open Scope list_scope.
Local Open Scope N_scope.

(** However the bytes arrive and however often the task is woken: as long as no request is
    taken in the middle of a packet, the packets handed to the connection are those of the
    byte stream the server sent, in order, with nothing lost. *)
Theorem C30_whole_packets : forall C es, undisturbed C reader_init es -> r_failed (rrun C reader_init es) = false ->
  decodes C (arrived es) (r_packets (rrun C reader_init es)) (r_partial (rrun C reader_init es) ++ r_avail (rrun C reader_init es)).
Proof. intros C es U F. apply (undisturbed_decodes C es reader_init []); [exact U|exact F|constructor]. Qed.

(** For every schedule: the packets are those of the byte stream, except that each request taken
    while a packet was half read made the client forget that half and go on behind it. *)
Theorem C30_exactly_what_is_lost : forall C es, r_failed (rrun C reader_init es) = false ->
  lossy C (disturbances C reader_init es) (arrived es) (r_packets (rrun C reader_init es))
    (r_partial (rrun C reader_init es) ++ r_avail (rrun C reader_init es)).
Proof. intros C es F. apply (run_lossy C es reader_init 0 [] F); [constructor|now left]. Qed.
(** Conversely every such loss happens in some schedule: nothing in the client prevents it. *)
Theorem C30_every_loss_is_possible : forall C n bs ps left, lossy C n bs ps left ->
  exists es, arrived es = bs /\ disturbances C reader_init es = n /\ r_failed (rrun C reader_init es) = false /\
    r_packets (rrun C reader_init es) = ps /\ r_partial (rrun C reader_init es) ++ r_avail (rrun C reader_init es) = left.
Proof. intros C n bs ps left H. exact (lossy_run C n bs ps left H []). Qed.
(** Without such requests nothing is lost. *)
Theorem C30_nothing_else_is_lost : forall C bs ps left, lossy C 0 bs ps left <-> decodes C bs ps left.
Proof. exact lossy_zero. Qed.

(** Finding: a request that arrives in the middle of a packet makes the client forget the
    part already read, for every packet and every cut: it goes on decoding in the middle. *)
Theorem C30_request_mid_packet_refuted : forall C b1 b2, read_packet C b1 = Err EIo ->
  rrun C reader_init [Arrive b1; Poll; Request; Arrive b2; Poll] = rrun C reader_init [Arrive b2; Poll].
Proof. intros C b1 b2 H. unfold rrun. cbn [fold_left]. unfold rstep at 4. cbn. rewrite H. cbn. reflexivity. Qed.
(** For example one table-columns packet turns into an end of stream that was never sent. *)
Theorem C30_phantom_end_of_stream_refuted :
  packet_ok 54429 (PTableColumns [] [5]) /\
  exists b1 b2, enc_packet (PTableColumns [] [5]) = b1 ++ b2 /\
  r_packets (rrun (demo_conn false) reader_init [Arrive b1; Poll; Arrive b2; Poll]) = [PTableColumns [] [5]] /\
  r_packets (rrun (demo_conn false) reader_init [Arrive b1; Poll; Request; Arrive b2; Poll]) = [PEndOfStream].
Proof.
  split; [repeat split; vm_compute; discriminate|]. exists [11; 0; 1], [5]. vm_compute. repeat split.
Qed.

Example C30_nonvacuous :
  let es := [Arrive [5; 11]; Poll; Request; Poll; Arrive [0]; Poll; Arrive [1; 5; 4]; Poll; Request; Poll; Poll] in
  undisturbed (demo_conn false) reader_init es /\ r_failed (rrun (demo_conn false) reader_init es) = false /\
  r_packets (rrun (demo_conn false) reader_init es) = [PEndOfStream; PTableColumns [] [5]; PPong].
Proof. vm_compute. repeat split. Qed.
Print Assumptions C30_whole_packets.
Print Assumptions C30_exactly_what_is_lost.
Print Assumptions C30_every_loss_is_possible.
Print Assumptions C30_nothing_else_is_lost.
Print Assumptions C30_request_mid_packet_refuted.
Print Assumptions C30_phantom_end_of_stream_refuted.
