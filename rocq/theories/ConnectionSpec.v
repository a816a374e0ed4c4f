(** What the properties of the connection say, in terms of the wire history alone. *)
From Verif Require Import Base Types IndexMap Block Progress Protocol Connection.
Local Open Scope list_scope.

(** The packets that end a query. *)
Definition ends (p : packet) : bool := match p with PException _ | PEndOfStream => true | _ => false end.

(** Queries on the wire, in order. *)
Fixpoint sent_queries (log : list entry) : list (nat * text) :=
  match log with
  | [] => []
  | LQuery q t _ :: l => (q, t) :: sent_queries l
  | _ :: l => sent_queries l
  end.
Fixpoint terminators (log : list entry) : nat :=
  match log with
  | [] => O
  | LRecv p :: l => if ends p then S (terminators l) else terminators l
  | _ :: l => terminators l
  end.
(** The submitted queries with their numbers. *)
Fixpoint number (n : nat) (l : list text) : list (nat * text) :=
  match l with [] => [] | t :: l => (n, t) :: number (S n) l end.

(** At most one query in flight: a query is sent only at the start or after the previous one
    was ended by the server. *)
Fixpoint one_at_a_time (busy : bool) (log : list entry) : Prop :=
  match log with
  | [] => True
  | LQuery _ _ _ :: l => busy = false /\ one_at_a_time true l
  | LRecv p :: l => one_at_a_time (if ends p then false else busy) l
  | LData _ _ :: l => one_at_a_time busy l
  end.

(** The query in flight, with its id. *)
Fixpoint in_flight_from (cur : option (nat * text)) (log : list entry) : option (nat * text) :=
  match log with
  | [] => cur
  | LQuery q _ id :: l => in_flight_from (Some (q, id)) l
  | LRecv p :: l => in_flight_from (if ends p then None else cur) l
  | LData _ _ :: l => in_flight_from cur l
  end.
Definition in_flight (log : list entry) : option (nat * text) := in_flight_from None log.

(** What the server answered until it ended the query. *)
Fixpoint answer_here (log : list entry) : list item :=
  match log with
  | [] => []
  | LRecv (PData _ b) :: l => IBlock b :: answer_here l
  | LRecv (PException e) :: _ => [IError e]
  | LRecv PEndOfStream :: _ => []
  | LRecv _ :: l => answer_here l
  | LData _ _ :: l => answer_here l
  | LQuery _ _ _ :: _ => []
  end.
(** The answer to query number [q]. *)
Fixpoint answer (q : nat) (log : list entry) : list item :=
  match log with
  | [] => []
  | LQuery q' _ _ :: l => if Nat.eqb q' q then answer_here l else answer q l
  | _ :: l => answer q l
  end.
(** Whether the server has ended query [q]. *)
Fixpoint ended_here (log : list entry) : bool :=
  match log with
  | [] => false
  | LRecv p :: l => if ends p then true else ended_here l
  | _ :: l => ended_here l
  end.
Fixpoint ended (q : nat) (log : list entry) : bool :=
  match log with
  | [] => false
  | LQuery q' _ _ :: l => if Nat.eqb q' q then ended_here l else ended q l
  | _ :: l => ended q l
  end.

(** The progress packets that arrive while some query is in flight, with that query's id. *)
Fixpoint progress_of (cur : option (nat * text)) (log : list entry) : list (text * progress) :=
  match log with
  | [] => []
  | LQuery q _ id :: l => progress_of (Some (q, id)) l
  | LRecv (PProgress p) :: l => match cur with Some (_, id) => (id, p) :: progress_of cur l | None => progress_of cur l end
  | LRecv p :: l => progress_of (if ends p then None else cur) l
  | LData _ _ :: l => progress_of cur l
  end.

(** Everything a caller got or will still read, including an item the task is about to hand over. *)
Definition in_transit (s : state) (q : nat) : list item :=
  match k_task s with TSending q' i _ => if Nat.eqb q' q then [i] else [] | _ => [] end.
Definition received (s : state) (q : nat) (st : stream) : list item := s_read st ++ s_buf st ++ in_transit s q.
(** A caller whose stream is closed and empty sees the end of the stream. *)
Definition sees_end (s : state) (q : nat) (st : stream) : Prop := s_tx st = false /\ s_buf st = [].

(** The connection is over: reading fails, the last handle was dropped, the server greets again,
    or a block cannot be written. *)
Definition gives_up (s : state) (ev : event) : Prop :=
  match ev with
  | ReadError => True
  | Closed => True
  | Packet (PHello _) _ _ => True
  | Take _ w => match k_queue s with RData _ _ :: _ => w <> WOk | _ => False end
  | _ => False
  end.

(** What a caller has been given, read or unread. *)
Definition heard (v : view) : list item := match v with VStream st => s_read st ++ s_buf st | _ => [] end.

(** ** A server that waits for the end of the data it was promised *)
(** A block of which no column is sent: block.rs 223-230 drops the columns without data.  This is
    how the Native protocol marks the end of the data, whatever the number of rows says. *)
Definition no_columns (b : block) : bool :=
  forallb (fun e => match im_get (fst e) (b_data b) with Some _ => false | None => true end) (b_types b).
Definition is_empty (b : block) : bool := ((b_rows b =? 0)%N || no_columns b)%bool.
(** Empty blocks sent since the last query. *)
Definition closing_blocks (log : list entry) : nat :=
  fold_left (fun n e => match e with LQuery _ _ _ => O | LData _ b => if is_empty b then S n else n | LRecv _ => n end) log O.
Definition no_closing (r : request) : Prop := match r with RData _ b => is_empty b = false | _ => True end.
Definition no_closing_event (ev : event) : Prop := match ev with SubmitData _ b => is_empty b = false | _ => True end.
(** The server ends the query in flight only after a second empty block: the first one ended the
    external tables (client.rs 95-101), the second one ends the data. *)
Fixpoint server_waits (C : conn) (s : state) (evs : list event) : Prop :=
  match evs with
  | [] => True
  | ev :: evs =>
      match ev with Packet p _ _ => ends p = true -> (2 <= closing_blocks (k_log s))%nat | _ => True end /\
      match step C s ev with Some s' => server_waits C s' evs | None => True end
  end.
