(** What the server makes of the client's byte stream, packet by packet, following the native
    protocol (ProtocolSpec.v), and what the packets mean; nothing here mentions the client's
    state. *)
From Verif Require Import Base Types Text IndexMap Block BlockSpec ColumnSpec Progress Protocol ProtocolSpec Connection Api
  CompressionProofs ReaderLoop Session.
Local Open Scope list_scope.
Local Open Scope N_scope.

Inductive message := MQuery (id query : text) | MData (table : text) (b : block).

(** One client packet after the hello, read by a server set up like [C] (its revision, whether
    it was told to use compression). *)
Inductive server_reads (C : conn) : list N -> list message -> list N -> Prop :=
| sr_done bs : server_reads C bs [] bs
| sr_query bs id info secret stage compression query rest ms left :
    server_query (c_rev C) 54448 bs = Ok ((id, info, secret, stage, compression, query), rest) ->
    secret = [] -> stage = 2 -> compression = (if c_lz4 C then 1 else 0) ->
    server_reads C rest ms left -> server_reads C (1 :: bs) (MQuery id query :: ms) left
| sr_data bs table b rest1 rest ms left :
    dec_str bs = Ok (table, rest1) -> read_payload C rest1 = Ok (b, rest) ->
    server_reads C rest ms left -> server_reads C (2 :: bs) (MData table b :: ms) left.

(** The block the server gets for the block [b] that was sent. *)
Definition same_block (b b' : block) : Prop :=
  b_rows b' = b_rows b /\ b_types b' = b_types b /\ im_keys (b_data b') = im_keys (b_types b) /\
  forall k t vs, In (k, t) (b_types b) -> im_get k (b_data b) = Some vs -> im_get k (b_data b') = Some (map (normal t) vs).

(** What was sent, and what the server read. *)
Definition sent_as (e : entry) (m : message) : Prop :=
  match e, m with
  | LQuery _ query id, MQuery id' query' => id' = id /\ query' = query
  | LData _ b, MData table b' => table = [] /\ same_block b b'
  | _, _ => False
  end.
Definition outgoing (e : entry) : bool := match e with LRecv _ => false | _ => true end.
Fixpoint incoming (log : list entry) : list packet :=
  match log with [] => [] | LRecv p :: l => p :: incoming l | _ :: l => incoming l end.

(** What can be sent: texts within the wire's limits, well-formed blocks; with compression,
    blocks small enough for a frame. *)
Definition entry_ok (C : conn) (e : entry) : Prop :=
  match e with
  | LQuery _ query id => name_fits query /\ name_fits id
  | LData _ b => block_ok (c_uni C) (c_tz C) b /\ (- 2 ^ 31 <= bucket_num (b_info b) < 2 ^ 31)%Z /\
      (c_lz4 C = true -> forall raw, write_block (c_tz C) (c_rev C) b = Ok raw -> payload_ok (c_codec C) raw)
  | LRecv _ => True
  end.

(** All the bytes that came from the server. *)
Fixpoint zarrived (es : list zevent) : list N :=
  match es with [] => [] | ZArrive bs :: es => bs ++ zarrived es | _ :: es => zarrived es end.
(** The queries the callers submitted, in order. *)
Fixpoint zsubmitted (es : list zevent) : list text :=
  match es with [] => [] | ZCall (Submit query) :: es => query :: zsubmitted es | _ :: es => zsubmitted es end.
(** No request is taken while a packet is half read. *)
Definition calm (O : options) (B : conn) (es : list zevent) : Prop :=
  forall es1 id w es2 z, es = es1 ++ ZTake id w :: es2 -> zrun O B session_init es1 = Some z -> r_partial (z_reader z) = [].

(** The outcome of [Client::connect] for its caller, once it is there: the start query is
    query number 0, its answer is read to the end (client.rs 292-307). *)
Inductive connected (s : state) : res unit -> Prop :=
| conn_failed : k_view s 0 = VFailed -> connected s (Err EProtocol)
| conn_done st : k_view s 0 = VStream st -> s_rx st = true -> s_tx st = false -> s_buf st = [] ->
    connected s (execute (s_read st)).
