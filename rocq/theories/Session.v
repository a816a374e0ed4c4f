(** A whole session, from the first byte to the last: klickhouse/src/client.rs 180-208
    ([run_inner], [run]) over the two byte streams of the socket.  It puts together the parts
    modelled elsewhere: [send_hello], [receive_hello], [read_packet], [send_query], [send_data]
    (Protocol.v), the [select!] loop as the socket sees it (ReaderLoop.v) and as the callers see
    it (Connection.v).
    Simplifications: a packet whose writing fails half way is not recorded in [z_out] (what was
    buffered of it may or may not reach the server); after it nothing is written, since the
    task ends.  Every [send_*] flushes at its end (internal_client_out.rs 163, 222, 247), so what is
    written is visible to the server at once. *)
From Coq Require Import String.
From Verif Require Import Base Types Text Block Progress Protocol Connection ReaderLoop.
Local Open Scope list_scope.
Local Open Scope N_scope.

(** client.rs 236-243 [ClientOptions], without [tcp_nodelay] *)
Record options := { o_database : text; o_user : text; o_password : text }.

(** The connection before and after the hello: internal_client_in.rs 29-34 and
    internal_client_out.rs 128-134 start with [ServerHello::default()] (revision 0);
    client.rs 188-189 store the server's hello in both halves. *)
Definition at_revision (B : conn) (rev : N) : conn :=
  {| c_codec := c_codec B; c_uni := c_uni B; c_tz := c_tz B; c_lz4 := c_lz4 B; c_rev := rev |}.

(** Where [run_inner] is: before [send_hello], in [receive_hello], in the loop. *)
Inductive phase := ZStart | ZHandshake | ZOpen (h : server_hello).

Record session := {
  z_phase : phase;
  z_conn : state;        (* the callers, the queue, the queries: Connection.v *)
  z_reader : reader;     (* the bytes from the server: ReaderLoop.v *)
  z_out : list N }.      (* the bytes written to the server *)

Definition session_init : session := {| z_phase := ZStart; z_conn := init; z_reader := reader_init; z_out := [] |}.

(** What one entry of the wire history puts on the wire: client.rs 62-84, 91-102, 115-119. *)
Definition entry_bytes (C : conn) (e : entry) : list N :=
  match e with
  | LQuery _ query id => send_query (c_rev C) (client_query C id query)
  | LData _ b => match send_data C b [] false with Ok bs => bs | _ => [] end
  | LRecv _ => []
  end.
(** The bytes a step of the task writes: those of the entries it adds to the history. *)
Definition written (C : conn) (before after : state) : list N :=
  flat_map (entry_bytes C) (skipn (List.length (k_log before)) (k_log after)).

Inductive zevent :=
| ZSendHello (ok : bool)          (* client.rs 181-187 *)
| ZCall (ev : event)              (* something a caller does *)
| ZArrive (bs : list N)           (* bytes from the server arrive *)
| ZPoll (id : text) (w : write)   (* the task reads: client.rs 188 or 199-202 *)
| ZTake (id : text) (w : write)   (* the task takes a request: client.rs 193-198 *)
| ZResume (id : text) (w : write) (* a blocked delivery goes on *)
| ZClosed                         (* all handles are gone: client.rs 194-196 *)
| ZBroken.                        (* the socket fails or the server closes it *)

(** The events that are a caller's. *)
Definition callers_event (ev : event) : bool :=
  match ev with Submit _ | SubmitData _ _ | Consume _ | Abandon _ | CloseHandles => true | _ => false end.

(** One step of the task in the loop, with what it writes. *)
Definition loop_step (C : conn) (z : session) (ev : event) (r : reader) : option session :=
  match step C (z_conn z) ev with
  | Some s => Some {| z_phase := z_phase z; z_conn := s; z_reader := r; z_out := z_out z ++ written C (z_conn z) s |}
  | None => None
  end.
Definition with_reader (z : session) (r : reader) : session :=
  {| z_phase := z_phase z; z_conn := z_conn z; z_reader := r; z_out := z_out z |}.
(** client.rs 204-208: the task ends with an error, which is only logged. *)
Definition gives_up (z : session) : session :=
  {| z_phase := z_phase z; z_conn := finish (z_conn z); z_reader := z_reader z; z_out := z_out z |}.

Definition zstep (O : options) (B : conn) (z : session) (e : zevent) : option session :=
  match e with
  | ZSendHello ok =>
    match z_phase z with
    | ZStart =>
      Some (if ok then {| z_phase := ZHandshake; z_conn := z_conn z; z_reader := z_reader z;
                          z_out := z_out z ++ send_hello (o_database O) (o_user O) (o_password O) |}
            else gives_up {| z_phase := ZHandshake; z_conn := z_conn z; z_reader := z_reader z; z_out := z_out z |})
    | _ => None
    end
  | ZCall ev =>
    if callers_event ev then
      match step B (z_conn z) ev with
      | Some s => Some {| z_phase := z_phase z; z_conn := s; z_reader := z_reader z; z_out := z_out z |}
      | None => None
      end
    else None
  | ZArrive bs => Some (with_reader z (rstep B (z_reader z) (Arrive bs)))
  | ZPoll id w =>
    match k_task (z_conn z) with
    | TSelect =>
      let r := z_reader z in
      match z_phase z with
      | ZStart => None
      | ZHandshake =>
        match receive_hello (at_revision B 0) (r_partial r ++ r_avail r) with
        | Ok (h, rest) => Some {| z_phase := ZOpen h; z_conn := z_conn z;
            z_reader := {| r_partial := []; r_avail := rest; r_packets := r_packets r; r_failed := r_failed r |}; z_out := z_out z |}
        | Err EIo => Some (with_reader z {| r_partial := r_partial r ++ r_avail r; r_avail := []; r_packets := r_packets r; r_failed := r_failed r |})
        | _ => Some (gives_up z)
        end
      | ZOpen h =>
        let C := at_revision B (h_revision h) in
        let r' := rstep C r Poll in
        match read_packet C (r_partial r ++ r_avail r) with
        | Ok (p, _) => loop_step C z (Packet p id w) r'
        | Err EIo => Some (with_reader z r')
        | _ => loop_step C z ReadError r'
        end
      end
    | _ => None
    end
  | ZTake id w =>
    match z_phase z with
    | ZOpen h => let C := at_revision B (h_revision h) in loop_step C z (Take id w) (rstep C (z_reader z) Request)
    | _ => None
    end
  | ZResume id w =>
    match z_phase z with
    | ZOpen h => loop_step (at_revision B (h_revision h)) z (Resume id w) (z_reader z)
    | _ => None
    end
  | ZClosed =>
    match z_phase z with
    | ZOpen h => loop_step (at_revision B (h_revision h)) z Closed (z_reader z)
    | _ => None
    end
  | ZBroken => match z_phase z, k_task (z_conn z) with ZStart, _ => None | _, TSelect => Some (gives_up z) | _, _ => None end
  end.

Inductive live (O : options) (B : conn) : session -> Prop :=
| live_init : live O B session_init
| live_step z e z' : live O B z -> zstep O B z e = Some z' -> live O B z'.

Fixpoint zrun (O : options) (B : conn) (z : session) (es : list zevent) : option session :=
  match es with
  | [] => Some z
  | e :: es => match zstep O B z e with Some z' => zrun O B z' es | None => None end
  end.

(** client.rs 292-307 [Client::start], the end of [connect]: one query, its answer run to the
    end.  [execute] is Api.v's; here only the first submission matters. *)
Definition start_query : text := txt "SET date_time_input_format='best_effort'".
