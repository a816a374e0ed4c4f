(** Model of klickhouse/src/lock.rs call by call: what [try_lock], [lock], [reset] and the handles do with the
    answers they get (Lock.v has the interleavings of many tasks, this file the calls of one). *)
From Coq Require Import String.
From Verif Require Import Base Types Text TypeText Block Protocol Connection Errors Lock Migrate.
Local Open Scope list_scope.
Local Open Scope N_scope.

(** [ClickhouseLock] (lock.rs 9-14); [new] (22-28), [with_cluster] (30-33). *)
Record lock_of := { k_name : text; k_cluster : text }.
Definition new_lock (name : text) : lock_of := {| k_name := name; k_cluster := [] |}.
Definition with_cluster (l : lock_of) (c : text) : lock_of := {| k_name := k_name l; k_cluster := on_cluster c |}.

(** What [Client::execute] returned: nothing, or an error. *)
Definition answer_of (items : list item) : option kerror := first_error items.
(** A dead client: client.rs 318-326, the queue is closed before anything is sent. *)
Definition closed_error : kerror := KProtocol (txt "failed to send query: channel closed").

Inductive act := ASent (q : text) | ASlept (ms : N).
Inductive tried := THandle | TNone | TError (e : kerror).
(** lock.rs 36-56 [try_lock] *)
Definition try_lock (D : tzdb) (l : lock_of) (a : option kerror) : list act * tried :=
  ([ASent (create_statement (k_name l) (k_cluster l))],
   match a with
   | None => THandle
   | Some e => if contains (txt "already exists") (display D e) then TNone else TError e
   end).

Inductive locked := LHandle | LError (e : kerror) | LPending.
(** lock.rs 59-79 [lock]: the loop, one answer for each round; [LPending] when it is still waiting for an answer. *)
Fixpoint lock_loop (D : tzdb) (l : lock_of) (answers : list (option kerror)) : list act * locked :=
  let create := ASent (create_statement (k_name l) (k_cluster l)) in
  match answers with
  | [] => ([create], LPending)
  | None :: _ => ([create], LHandle)
  | Some e :: rest =>
      if contains (txt "already exists") (display D e)
      then let (t, o) := lock_loop D l rest in (create :: ASlept 100 :: t, o)
      else ([create], LError e)
  end.

(** The life of a handle (lock.rs 16-19, 91-109).  [unlock] is an async function that owns the handle: nothing
    happens until its future is polled; then it takes the lock out of the handle ([take], 94) and calls [reset], which
    puts its statement into the client's queue (client.rs 318-326), possibly after waiting for room there, and waits
    for the answer.  The handle's [Drop] (99-109) spawns a task that does the same, if the lock is still in it. *)
Inductive who := ByUnlock | ByDrop.
Inductive life :=
| HHeld                   (* the handle, lock inside *)
| HCalled                 (* [unlock] called, its future not polled yet: the handle is inside, lock and all *)
| HSpawned                (* the task of [Drop], not polled yet *)
| HQueueing (w : who)     (* the lock has been taken out; waiting for room in the queue *)
| HAsked (w : who)        (* the statement is in the queue; waiting for the answer *)
| HOver (w : who) (r : option (option kerror)).   (* [Some r]: it finished with [r]; [None]: abandoned *)
Inductive hevent :=
| HUnlock                          (* the caller calls [unlock] *)
| HDrop                            (* the caller drops the handle *)
| HPoll (closed room : bool)       (* the future or task is polled *)
| HAnswer (a : option kerror)      (* the result stream of the statement has ended *)
| HAbandon                         (* the caller drops the future of [unlock] *)
| HShutdown.                       (* the runtime ends: spawned tasks are dropped *)
Definition queue_up (l : lock_of) (w : who) (closed room : bool) : life * list text :=
  if closed then (HOver w (Some (Some closed_error)), [])
  else if room then (HAsked w, [drop_statement (k_name l) (k_cluster l)]) else (HQueueing w, []).
Definition hstep (l : lock_of) (s : life) (e : hevent) : option (life * list text) :=
  match s, e with
  | HHeld, HUnlock => Some (HCalled, [])
  | HHeld, HDrop => Some (HSpawned, [])
  | HCalled, HPoll closed room => Some (queue_up l ByUnlock closed room)
  | HCalled, HAbandon => Some (HSpawned, [])          (* the handle in the future is dropped: its [Drop] runs *)
  | HSpawned, HPoll closed room => Some (queue_up l ByDrop closed room)
  | HSpawned, HShutdown => Some (HOver ByDrop None, [])
  | HQueueing w, HPoll closed room => Some (queue_up l w closed room)
  | HQueueing ByUnlock, HAbandon => Some (HOver ByUnlock None, [])   (* the handle is empty: [Drop] does nothing *)
  | HQueueing ByDrop, HShutdown => Some (HOver ByDrop None, [])
  | HAsked w, HAnswer a => Some (HOver w (Some a), [])
  | HAsked ByUnlock, HAbandon => Some (HOver ByUnlock None, [])
  | HAsked ByDrop, HShutdown => Some (HOver ByDrop None, [])
  | _, _ => None
  end.
Fixpoint hrun (l : lock_of) (s : life) (es : list hevent) : option (life * list text) :=
  match es with
  | [] => Some (s, [])
  | e :: es => match hstep l s e with
               | None => None
               | Some (s1, q1) => match hrun l s1 es with None => None | Some (s2, q2) => Some (s2, q1 ++ q2) end
               end
  end.
