(** Infinite executions of one connection, and what is asked of the server and the callers for
    every query to be answered. *)
From Verif Require Import Base Types Block Protocol Connection ConnectionSpec.
Local Open Scope list_scope.

(** States and events, one per instant; at an instant nothing may happen. *)
Definition execution (C : conn) (st : nat -> state) (ev : nat -> option event) : Prop :=
  st O = init /\ forall n, match ev n with Some e => step C (st n) e = Some (st (S n)) | None => st (S n) = st n end.

(** The connection does not break and is not given up. *)
Definition stays_up (st : nat -> state) : Prop := forall n, k_task (st n) <> TEnded.
(** Every caller reads its results again and again while there are any, or drops them. *)
Definition callers_read (st : nat -> state) (ev : nat -> option event) : Prop :=
  forall (q n : nat), exists m, (n <= m)%nat /\
    ((forall s, k_view (st m) q = VStream s -> s_buf s = []) \/ ev m = Some (Consume q) \/ ev m = Some (Abandon q)).
(** The task goes on once the channel it waits for has room (the scheduler runs it). *)
Definition has_room (s : state) (q : nat) : Prop :=
  exists v, k_view s q = VStream v /\ (s_rx v = false \/ (length (s_buf v) < CHANNEL)%nat).
Definition task_goes_on (st : nat -> state) (ev : nat -> option event) : Prop :=
  forall n, exists m, (n <= m)%nat /\
    ((forall q i next, k_task (st m) = TSending q i next -> ~ has_room (st m) q) \/ exists id w, ev m = Some (Resume id w)).
(** The task looks at its request queue again and again. *)
Definition requests_taken (st : nat -> state) (ev : nat -> option event) : Prop :=
  forall n, exists m, (n <= m)%nat /\ (k_queue (st m) = [] \/ exists id w, ev m = Some (Take id w)).
(** The server ends every query it was sent, with an exception or the end of the stream. *)
Definition server_answers (st : nat -> state) (ev : nat -> option event) : Prop :=
  forall n, exists m, (n <= m)%nat /\
    (in_flight (k_log (st m)) = None \/ exists p id w, ev m = Some (Packet p id w) /\ ends p = true).
(** The caller of [q] keeps its stream and reads it whenever there is something to read. *)
Definition keeps_reading (st : nat -> state) (ev : nat -> option event) (q : nat) : Prop :=
  (forall n, ev n <> Some (Abandon q)) /\
  forall n, exists m, (n <= m)%nat /\ ((forall s, k_view (st m) q = VStream s -> s_buf s = []) \/ ev m = Some (Consume q)).
