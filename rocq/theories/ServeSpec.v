(** A server that answers the queries of a session, one after the other: what its bytes mean. *)
From Verif Require Import Base Types Text Block BlockSpec Progress Protocol ProtocolSpec Connection ConnectionSpec Session SessionSpec StoreSpec.
Local Open Scope list_scope.
Local Open Scope N_scope.

(** The packets without a block that neither end an answer nor greet. *)
Definition aside (p : packet) : Prop :=
  match p with PProgress _ | PPong | PProfileInfo _ | PTablesStatus _ | PTableColumns _ _ | PPartUUIDs _ | PReadTaskRequest => True | _ => False end.

(** [reply_wire C rows failure bs]: the bytes [bs] are an answer with these rows that succeeds, or that
    ends with the exception [failure]: the rows in any number of data packets (see StoreSpec.v),
    among them packets with totals or extremes and packets without a block, and the end. *)
Inductive reply_wire (C : conn) : list stored_row -> option server_exception -> list N -> Prop :=
| rw_end : reply_wire C [] None (enc_packet PEndOfStream)
| rw_exception e : exception_ok e -> reply_wire C [] (Some e) (enc_packet (PException e))
| rw_rows t name body table failure bs : name_fits name -> payload_wire C t body -> reply_wire C table failure bs ->
    reply_wire C (t ++ table) failure (enc_data 1 name body ++ bs)
| rw_summary id t name body table failure bs : In id [7; 8] -> name_fits name -> payload_wire C t body -> reply_wire C table failure bs ->
    reply_wire C table failure (enc_data id name body ++ bs)
| rw_aside p table failure bs : aside p -> packet_ok (c_rev C) p -> reply_wire C table failure bs ->
    reply_wire C table failure (enc_packet p ++ bs).
Definition reply := (list stored_row * option server_exception)%type.

(** The server speaks in turn: what has arrived from it at any moment of the session [es] is a part
    (from the start) of its greeting and its answers [bss] to the queries it had been sent by then. *)
Definition in_turn (O : options) (B : conn) (greeting : list N) (bss : list (list N)) (es : list zevent) : Prop :=
  forall es1 es2 z, es = es1 ++ es2 -> zrun O B session_init es1 = Some z ->
  exists later, zarrived es1 ++ later = greeting ++ concat (firstn (length (sent_queries (k_log (z_conn z)))) bss).
