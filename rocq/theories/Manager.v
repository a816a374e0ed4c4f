(** Model of klickhouse/src/manager.rs (connections of a bb8 pool) on top of Connection.v and Api.v.
    The pool itself, name lookup and the TCP connect are not modelled. *)
From Coq Require Import String.
From Verif Require Import Base Types Text IndexMap Block Progress Protocol Connection Api RawRow Numeric Convert.
From Verif Require Session.
Local Open Scope list_scope.

(** client.rs 545-548 [is_closed]: the task has dropped its end of the request channel.
    manager.rs 48-50 [has_broken] *)
Definition has_broken (s : state) : bool := match k_task s with TEnded => true | _ => false end.

(** What a caller of [query_raw] has got in the end: the error of a dropped oneshot channel
    (client.rs 326-331), or all the items of its stream once that has ended. *)
Definition finished (s : state) (q : nat) : option (res (list item)) :=
  match k_view s q with
  | VFailed => Some (Err EProtocol)
  | VStream st => if s_rx st && negb (s_tx st) && (match s_buf st with [] => true | _ => false end) then Some (Ok (s_read st)) else None
  | _ => None
  end.
Definition executed (s : state) (q : nat) : option (res unit) :=
  match finished s q with Some r => Some (rbind r execute) | None => None end.

(** client.rs 293-309 [start] and manager.rs 36-42 [connect]: query 0 is the [SET], query 1 the
    prequel, submitted when query 0 has succeeded. *)
Definition set_query : text := Session.start_query.
Definition connected (prequel : bool) (s : state) : option (res unit) :=
  match executed s 0 with
  | Some (Ok _) => if prequel then executed s 1 else Some (Ok tt)
  | r => r
  end.

(** manager.rs 44-47 [is_valid]: [query_one::<UnitValue<String>>("select '';")] *)
Definition is_valid (items : list item) : res unit :=
  rmap (fun _ => tt) (query_one (unit_deserialize RString) items).
