(** Model of the connection task of klickhouse/src/client.rs 36-208 together with the channels
    its callers hold (tokio mpsc/oneshot), as a transition system.  One transition is one
    uninterrupted run of the task (or of a caller) between two awaits that can block on
    somebody else: taking a request, handling a packet, resuming a blocked delivery.
    Simplifications: writing to the socket is one action that succeeds or fails (the socket
    never blocks the task for ever); the hello exchange has been done (client.rs 180-189), so
    [C] carries the negotiated revision; the packets come from [read_packet] (Protocol.v), and
    how bytes become packets is ReaderLoop.v. *)
From Verif Require Import Base Types IndexMap Block Progress Protocol.
Local Open Scope list_scope.

(** client.rs 95-100, 357-363: the block that ends external tables and inserts. *)
Definition empty_block : block := {| b_info := default_info; b_rows := 0; b_types := []; b_data := [] |}.

(** What a result stream yields: a block or the server's exception
    ([Result<Block>], client.rs 41, 132, 141). *)
Inductive item := IBlock (b : block) | IError (e : server_exception).

(** client.rs 211-224 [ClientRequest].  Queries are numbered by submission; a data request
    carries the number of the insert it belongs to, which the code does not have (it is only
    used to state properties). *)
Inductive request := RQuery (q : nat) (query : text) | RData (q : nat) (b : block).

(** A result channel: mpsc::channel(32), client.rs 88. *)
Definition CHANNEL : nat := 32.
Record stream := {
  s_read : list item;   (* what the caller has read so far *)
  s_buf : list item;    (* what waits in the channel *)
  s_tx : bool;          (* the connection still holds the sender *)
  s_rx : bool }.        (* the caller still holds the receiver *)

(** What the caller of [query_raw] sees, client.rs 311-332: it waits on a oneshot channel,
    which is answered with a stream or dropped (an error). *)
Inductive view :=
| VNone
| VWaiting (alive : bool)   (* [alive]: the caller has not given up *)
| VFailed
| VStream (s : stream).

(** Where the task is: at [select!] (client.rs 192), inside [current.send(..).await] on a full
    channel (client.rs 132, 141; [next] if an exception is being delivered), or finished. *)
Inductive task := TSelect | TSending (q : nat) (i : item) (next : bool) | TEnded.

(** The history of the wire, in order: queries sent (with their id), data blocks sent, packets
    received. *)
Inductive entry :=
| LQuery (q : nat) (query id : text)
| LData (q : nat) (b : block)
| LRecv (p : packet).

Record state := {
  k_open : bool;                     (* some Client handle is alive *)
  k_queue : list request;            (* mpsc::channel(1024), client.rs 299 *)
  k_pending : list (nat * text);     (* pending_queries *)
  k_exec : option (nat * text);      (* executing_query: query number and id *)
  k_task : task;
  k_view : nat -> view;
  k_submitted : list text;           (* history: the queries submitted, in order *)
  k_log : list entry;                (* history of the wire *)
  k_published : list (text * progress) (* history: what was broadcast, client.rs 152 *) }.

Definition init : state := {|
  k_open := true; k_queue := []; k_pending := []; k_exec := None; k_task := TSelect; k_view := fun _ => VNone;
  k_submitted := []; k_log := []; k_published := [] |}.

Definition set_view (s : state) (q : nat) (v : view) : state := {|
  k_open := k_open s; k_queue := k_queue s; k_pending := k_pending s; k_exec := k_exec s; k_task := k_task s;
  k_view := fun n => if Nat.eqb n q then v else k_view s n;
  k_submitted := k_submitted s; k_log := k_log s; k_published := k_published s |}.
Definition set_task (s : state) (t : task) : state := {|
  k_open := k_open s; k_queue := k_queue s; k_pending := k_pending s; k_exec := k_exec s; k_task := t;
  k_view := k_view s; k_submitted := k_submitted s; k_log := k_log s; k_published := k_published s |}.
Definition set_exec (s : state) (e : option (nat * text)) : state := {|
  k_open := k_open s; k_queue := k_queue s; k_pending := k_pending s; k_exec := e; k_task := k_task s;
  k_view := k_view s; k_submitted := k_submitted s; k_log := k_log s; k_published := k_published s |}.
Definition set_queue (s : state) (l : list request) : state := {|
  k_open := k_open s; k_queue := l; k_pending := k_pending s; k_exec := k_exec s; k_task := k_task s;
  k_view := k_view s; k_submitted := k_submitted s; k_log := k_log s; k_published := k_published s |}.
Definition set_pending (s : state) (l : list (nat * text)) : state := {|
  k_open := k_open s; k_queue := k_queue s; k_pending := l; k_exec := k_exec s; k_task := k_task s;
  k_view := k_view s; k_submitted := k_submitted s; k_log := k_log s; k_published := k_published s |}.
Definition add_log (s : state) (e : entry) : state := {|
  k_open := k_open s; k_queue := k_queue s; k_pending := k_pending s; k_exec := k_exec s; k_task := k_task s;
  k_view := k_view s; k_submitted := k_submitted s; k_log := k_log s ++ [e]; k_published := k_published s |}.
Definition publish (s : state) (e : text * progress) : state := {|
  k_open := k_open s; k_queue := k_queue s; k_pending := k_pending s; k_exec := k_exec s; k_task := k_task s;
  k_view := k_view s; k_submitted := k_submitted s; k_log := k_log s; k_published := k_published s ++ [e] |}.

(** Dropping one sender of a result channel. *)
Definition drop_tx (v : view) : view :=
  match v with
  | VStream st => VStream {| s_read := s_read st; s_buf := s_buf st; s_tx := false; s_rx := s_rx st |}
  | VWaiting _ => VFailed
  | v => v
  end.

(** client.rs 204-208 and the end of [run_inner]: the task ends (an error is only logged), so
    everything it owns is dropped: the request queue with the oneshot senders in it, the
    pending queries, the sender of the executing query. *)
Definition finish (s : state) : state := {|
  k_open := k_open s; k_queue := []; k_pending := []; k_exec := None; k_task := TEnded;
  k_view := fun n => drop_tx (k_view s n);
  k_submitted := k_submitted s; k_log := k_log s; k_published := k_published s |}.

(** How writing a query went: fine, failed in [send_query], failed in the data block after it. *)
Inductive write := WOk | WFailQuery | WFailData.

(** client.rs 60-104 [dispatch_query]; [id] is the fresh UUID's text. *)
Definition dispatch (s : state) (q : nat) (query id : text) (w : write) : state :=
  match w with
  | WFailQuery => finish s
  | _ =>
    let s := add_log s (LQuery q query id) in
    let alive := match k_view s q with VWaiting a => a | _ => false end in
    let s := set_view s q (VStream {| s_read := []; s_buf := []; s_tx := true; s_rx := alive |}) in
    let s := set_exec s (Some (q, id)) in
    match w with WFailData => finish s | _ => add_log s (LData q empty_block) end
  end.

(** [if let Some(query) = self.pending_queries.pop_front() { self.dispatch_query(query) }],
    client.rs 142-144, 161-163. *)
Definition next_query (s : state) (id : text) (w : write) : state :=
  match k_pending s with
  | [] => s
  | (q, query) :: rest => dispatch (set_pending s rest) q query id w
  end.

(** client.rs 106-125 [handle_request] *)
Definition handle_request (C : conn) (s : state) (r : request) (id : text) (w : write) : state :=
  match r with
  | RQuery q query =>
    match k_pending s, k_exec s with
    | [], None => dispatch s q query id w
    | _, _ => set_pending s (k_pending s ++ [(q, query)])
    end
  | RData q b =>
    match send_data C b [] false, w with
    | Ok _, WOk => add_log s (LData q b)
    | _, _ => finish s
    end
  end.

(** [sender.send(item).await.ok()] for a stream: an item for a dropped receiver is discarded,
    with 32 items waiting the task blocks. *)
Inductive sent := SDone (st : stream) | SBlock.
Definition send_item (st : stream) (i : item) : sent :=
  if s_rx st then
    if Nat.ltb (length (s_buf st)) CHANNEL
    then SDone {| s_read := s_read st; s_buf := s_buf st ++ [i]; s_tx := s_tx st; s_rx := s_rx st |}
    else SBlock
  else SDone st.

(** After delivering: for an exception the sender is dropped and the next query is sent. *)
Definition delivered (s : state) (q : nat) (next : bool) (id : text) (w : write) : state :=
  if next then next_query (set_view s q (drop_tx (k_view s q))) id w else s.

Definition deliver (s : state) (q : nat) (i : item) (next : bool) (id : text) (w : write) : state :=
  match k_view s q with
  | VStream st =>
    match send_item st i with
    | SDone st' => delivered (set_task (set_view s q (VStream st')) TSelect) q next id w
    | SBlock => set_task s (TSending q i next)
    end
  | _ => delivered (set_task s TSelect) q next id w
  end.

(** client.rs 127-177 [receive_packet] *)
Definition receive_packet (s : state) (p : packet) (id : text) (w : write) : state :=
  let s := add_log s (LRecv p) in
  match p with
  | PHello _ => finish s
  | PData _ b => match k_exec s with Some (q, _) => deliver s q (IBlock b) false id w | None => finish s end
  | PException e =>
    match k_exec s with Some (q, _) => deliver (set_exec s None) q (IError e) true id w | None => finish s end
  | PProgress p => match k_exec s with Some (_, u) => publish s (u, p) | None => s end
  | PEndOfStream =>
    match k_exec s with
    | Some (q, _) => next_query (set_view (set_exec s None) q (drop_tx (k_view s q))) id w
    | None => finish s
    end
  | _ => s
  end.

(** What can happen. *)
Inductive event :=
| Submit (query : text)                 (* a caller enqueues a query: client.rs 316-325, 365-376, 399-411 *)
| SubmitData (q : nat) (b : block)      (* the caller of insert [q] enqueues a block: client.rs 334-345 *)
| Take (id : text) (w : write)          (* client.rs 193-198 *)
| Packet (p : packet) (id : text) (w : write)   (* client.rs 199-202 *)
| ReadError                             (* [packet?] with an error, or a panic while decoding *)
| Resume (id : text) (w : write)        (* the blocked send goes on *)
| Consume (q : nat)                     (* the caller of [q] reads one item *)
| Abandon (q : nat)                     (* the caller of [q] drops its future or its stream *)
| CloseHandles                          (* the last Client is dropped *)
| Closed.                               (* [input.recv()] gives None: client.rs 194-196 *)

Definition step (C : conn) (s : state) (ev : event) : option state :=
  match ev with
  | Submit query =>
    match k_open s, k_task s with
    | false, _ | _, TEnded => None
    | true, _ =>
      if Nat.ltb (length (k_queue s)) 1024 then
        let q := length (k_submitted s) in
        Some {| k_open := k_open s; k_queue := k_queue s ++ [RQuery q query]; k_pending := k_pending s; k_exec := k_exec s;
                k_task := k_task s; k_view := (fun n => if Nat.eqb n q then VWaiting true else k_view s n);
                k_submitted := k_submitted s ++ [query]; k_log := k_log s; k_published := k_published s |}
      else None
    end
  | SubmitData q b =>
    match k_open s, k_task s, k_view s q with
    | false, _, _ | _, TEnded, _ => None
    | true, _, VStream st => if s_rx st && Nat.ltb (length (k_queue s)) 1024 then Some (set_queue s (k_queue s ++ [RData q b])) else None
    | _, _, _ => None
    end
  | Take id w =>
    match k_task s, k_queue s with
    | TSelect, r :: rest => Some (handle_request C (set_queue s rest) r id w)
    | _, _ => None
    end
  | Packet p id w => match k_task s with TSelect => Some (receive_packet s p id w) | _ => None end
  | ReadError => match k_task s with TSelect => Some (finish s) | _ => None end
  | Resume id w =>
    match k_task s with
    | TSending q i next =>
      match k_view s q with
      | VStream st => match send_item st i with SDone _ => Some (deliver s q i next id w) | SBlock => None end
      | _ => None
      end
    | _ => None
    end
  | Consume q =>
    match k_view s q with
    | VStream st =>
      match s_rx st, s_buf st with
      | true, i :: rest => Some (set_view s q (VStream {| s_read := s_read st ++ [i]; s_buf := rest; s_tx := s_tx st; s_rx := true |}))
      | _, _ => None
      end
    | _ => None
    end
  | Abandon q =>
    match k_view s q with
    | VStream st => Some (set_view s q (VStream {| s_read := s_read st; s_buf := []; s_tx := s_tx st; s_rx := false |}))
    | VWaiting _ => Some (set_view s q (VWaiting false))
    | _ => None
    end
  | CloseHandles => Some {| k_open := false; k_queue := k_queue s; k_pending := k_pending s; k_exec := k_exec s; k_task := k_task s;
      k_view := k_view s; k_submitted := k_submitted s; k_log := k_log s; k_published := k_published s |}
  | Closed => match k_task s, k_open s, k_queue s with TSelect, false, [] => Some (finish s) | _, _, _ => None end
  end.

Inductive reachable (C : conn) : state -> Prop :=
| reach_init : reachable C init
| reach_step s ev s' : reachable C s -> step C s ev = Some s' -> reachable C s'.

Fixpoint run (C : conn) (s : state) (evs : list event) : option state :=
  match evs with
  | [] => Some s
  | ev :: evs => match step C s ev with Some s' => run C s' evs | None => None end
  end.
