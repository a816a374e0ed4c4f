(** Model of the subscribers to progress: client.rs 33-34, 42, 58, 152-158, 236, 300-304, 550-558 and the
    broadcast channel of tokio they use.  The channel keeps the last [cap] events
    (PROGRESS_CAPACITY = 100, client.rs 34; tokio rounds it up to 128) and knows for each
    receiver which event comes next; an event sent before anyone subscribed is not kept, which no
    later subscriber can tell. *)
From Verif Require Import Base Types Text Block Progress Protocol Connection.
Local Open Scope list_scope.
Local Open Scope nat_scope.

(** client.rs 34 and tokio's rounding (up to a power of two) *)
Definition PROGRESS_CAPACITY : nat := 100.
Definition RETAINED : nat := 2 ^ Nat.log2_up PROGRESS_CAPACITY.

(** What [Receiver::recv] returns: an event, [Err(Lagged(n))], [Err(Closed)]. *)
Inductive note := Got (e : text * progress) | Lagged (n : nat) | NoMore.
(** A receiver: where it was created, the position of the next event, and what it has returned so far (history). *)
Record sub := { b_start : nat; b_next : nat; b_notes : list note }.
(** The connection and the receivers created so far. *)
Record bstate := { b_conn : state; b_subs : list sub }.
Definition b_init : bstate := {| b_conn := init; b_subs := [] |}.

Inductive bevent :=
| BConn (ev : event)   (* something happens on the connection *)
| BSubscribe           (* [Client::subscribe_progress], client.rs 556-558 *)
| BRecv (i : nat).     (* receiver number [i] has [recv().await] completed *)

(** Senders: one in the task (client.rs 58), one in each Client handle (300-304). *)
Definition senders_left (s : state) : bool := k_open s || match k_task s with TEnded => false | _ => true end.

(** tokio [Receiver::recv]: [None] while it waits. *)
Definition recv (cap : nat) (s : state) (r : sub) : option sub :=
  let n := length (k_published s) in
  match nth_error (k_published s) (b_next r) with
  | Some e =>
      if Nat.leb n (b_next r + cap) then Some {| b_start := b_start r; b_next := S (b_next r); b_notes := b_notes r ++ [Got e] |}
      else Some {| b_start := b_start r; b_next := n - cap; b_notes := b_notes r ++ [Lagged (n - cap - b_next r)] |}
  | None => if senders_left s then None else Some {| b_start := b_start r; b_next := b_next r; b_notes := b_notes r ++ [NoMore] |}
  end.

Fixpoint set_sub (i : nat) (r : sub) (l : list sub) : list sub :=
  match l, i with [], _ => [] | _ :: l', O => r :: l' | x :: l', S j => x :: set_sub j r l' end.

Definition bstep (C : conn) (cap : nat) (s : bstate) (ev : bevent) : option bstate :=
  match ev with
  | BConn ev => option_map (fun k => {| b_conn := k; b_subs := b_subs s |}) (step C (b_conn s) ev)
  | BSubscribe =>
      if k_open (b_conn s) then
        let n := length (k_published (b_conn s)) in
        Some {| b_conn := b_conn s; b_subs := b_subs s ++ [{| b_start := n; b_next := n; b_notes := [] |}] |}
      else None
  | BRecv i =>
      match nth_error (b_subs s) i with
      | Some r => option_map (fun r' => {| b_conn := b_conn s; b_subs := set_sub i r' (b_subs s) |}) (recv cap (b_conn s) r)
      | None => None
      end
  end.
Inductive breachable (C : conn) (cap : nat) : bstate -> Prop :=
| br_init : breachable C cap b_init
| br_step s ev s' : breachable C cap s -> bstep C cap s ev = Some s' -> breachable C cap s'.
Fixpoint brun (C : conn) (cap : nat) (s : bstate) (evs : list bevent) : option bstate :=
  match evs with
  | [] => Some s
  | ev :: evs => match bstep C cap s ev with Some s' => brun C cap s' evs | None => None end
  end.

