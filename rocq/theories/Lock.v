(** Model of klickhouse/src/lock.rs and of the lock loop of migrate.rs 122-134, 203-216: any number
    of tasks, possibly on different hosts, talking to one ClickHouse server.  The server executes
    one statement at a time; between sending a statement, its execution and the arrival of the
    reply anything else may happen, a task may disappear (its future is dropped) at any await, and
    its connection may break at any time. *)
From Coq Require Import String.
From Verif Require Import Base Types Text.
Local Open Scope list_scope.
Local Open Scope N_scope.

(** lock.rs 38-41, 61-64, 83-86: the statements; [cluster] is [cluster_str] (lock.rs 31-34). *)
Definition lock_table (name : text) : text := (txt "_lock_" ++ name)%list.
Definition create_statement (name cluster : text) : text :=
  (txt "CREATE TABLE " ++ lock_table name ++ cluster ++ txt " (i Int64)ENGINE=Null")%list.
Definition drop_statement (name cluster : text) : text :=
  (txt "DROP TABLE IF EXISTS " ++ lock_table name ++ cluster ++ txt " SYNC")%list.
Definition on_cluster (c : text) : text := (txt " ON CLUSTER " ++ c)%list.
(** migrate.rs 122, 203 *)
Definition migration_lock : text := txt "refinery_exec".

(** Who is asking: [try_lock] (lock.rs 36-56), [lock] (59-79) or a migration
    (migrate.rs 118-135, 198-216: [try_lock] every 250 ms, a reset whenever it has been waiting
    for more than 60 s). *)
Inductive kind := KTry | KLock | KMigrate.
Inductive phase :=
| PIdle
| PCreating            (* CREATE sent, not executed yet *)
| PCreated             (* executed with success, the reply is on its way *)
| PRefused             (* executed: "already exists", the reply is on its way *)
| PSleeping (until : N)
| PResetting           (* the migration's own DROP sent, not executed yet *)
| PResetDone
| PHolds               (* the caller has the handle *)
| PDropping            (* the handle's DROP (unlock, or its Drop) sent, not executed yet *)
| POrphan              (* CREATE sent, nobody waits for the answer any more *)
| POrphanReset
| PLost                (* the table was created for this task, but no handle is left to drop it *)
(* The caller has the handle and its connection is dead.  [execute] (client.rs 525-534) reports success
   when the connection breaks before the server's answer to a query that has been sent (C52, C89). *)
| PHeldSent            (* the CREATE has not been executed yet *)
| PHeldFalse           (* the CREATE was refused or never arrived: there is no table of this task *)
| PHeldDead.           (* the table was created for this task *)
Record locker := { l_name : text; l_kind : kind; l_start : N; l_phase : phase }.
Record world := { w_now : N; w_table : text -> bool; w_tasks : nat -> locker }.

Definition w_init : world :=
  {| w_now := 0; w_table := fun _ => false;
     w_tasks := fun _ => {| l_name := []; l_kind := KTry; l_start := 0; l_phase := PIdle |} |}.

Inductive event :=
| ETick (ms : N)
| ECall (i : nat) (n : text) (k : kind)
| EExec (i : nat)        (* the server executes the statement task i has outstanding *)
| EReply (i : nat)
| EWake (i : nat)
| ERelease (i : nat)     (* unlock (lock.rs 93-96), Drop (99-109), end or failure of a migration *)
| ECancel (i : nat)      (* the task gives up: its future is dropped *)
| ELost (i : nat)        (* the connection of task i breaks *)
| EFail (i : nat)        (* the server answers with another error, or the statement never arrives *)
| EReset (n : text).     (* somebody calls [reset] (lock.rs 81-89), executed by the server *)

Definition set_phase (t : locker) (p : phase) : locker :=
  {| l_name := l_name t; l_kind := l_kind t; l_start := l_start t; l_phase := p |}.
Definition put (w : world) (i : nat) (t : locker) : world :=
  {| w_now := w_now w; w_table := w_table w; w_tasks := fun j => if Nat.eqb j i then t else w_tasks w j |}.
Definition set_table (w : world) (n : text) (b : bool) : world :=
  {| w_now := w_now w; w_table := fun m => if text_eqb m n then b else w_table w m; w_tasks := w_tasks w |}.

(** Durations in milliseconds: lock.rs 71, migrate.rs 129, 130. *)
Definition LOCK_POLL : N := 100.
Definition MIGRATE_POLL : N := 250.
Definition MIGRATE_PATIENCE : N := 60000.

Definition lstep (w : world) (e : event) : option world :=
  match e with
  | ETick ms => Some {| w_now := w_now w + ms; w_table := w_table w; w_tasks := w_tasks w |}
  | ECall i n k =>
      match l_phase (w_tasks w i) with
      | PIdle => Some (put w i {| l_name := match k with KMigrate => migration_lock | _ => n end; l_kind := k;
                                  l_start := w_now w; l_phase := PCreating |})
      | _ => None
      end
  | EExec i =>
      let t := w_tasks w i in let n := l_name t in
      match l_phase t with
      | PCreating => if w_table w n then Some (put w i (set_phase t PRefused))
                     else Some (put (set_table w n true) i (set_phase t PCreated))
      | POrphan => if w_table w n then Some (put w i (set_phase t PIdle))
                   else Some (put (set_table w n true) i (set_phase t PLost))
      | PHeldSent => if w_table w n then Some (put w i (set_phase t PHeldFalse))
                     else Some (put (set_table w n true) i (set_phase t PHeldDead))
      | PDropping => Some (put (set_table w n false) i (set_phase t PIdle))
      | PResetting => Some (put (set_table w n false) i (set_phase t PResetDone))
      | POrphanReset => Some (put (set_table w n false) i (set_phase t PIdle))
      | _ => None
      end
  | EReply i =>
      let t := w_tasks w i in
      match l_phase t with
      | PCreated => Some (put w i (set_phase t PHolds))
      | PRefused =>
          match l_kind t with
          | KTry => Some (put w i (set_phase t PIdle))                             (* [Ok(None)] *)
          | KLock => Some (put w i (set_phase t (PSleeping (w_now w + LOCK_POLL))))
          | KMigrate => Some (put w i (set_phase t (PSleeping (w_now w + MIGRATE_POLL))))
          end
      | PResetDone => Some (put w i (set_phase t PCreating))
      | _ => None
      end
  | EWake i =>
      let t := w_tasks w i in
      match l_phase t with
      | PSleeping u =>
          if w_now w <? u then None
          else match l_kind t with
               | KMigrate => if MIGRATE_PATIENCE <? w_now w - l_start t then Some (put w i (set_phase t PResetting))
                             else Some (put w i (set_phase t PCreating))
               | _ => Some (put w i (set_phase t PCreating))
               end
      | _ => None
      end
  | ERelease i =>
      let t := w_tasks w i in
      match l_phase t with
      | PHolds => Some (put w i (set_phase t PDropping))
      | PHeldSent => Some (put w i (set_phase t POrphan))      (* a dead connection: the DROP cannot be sent *)
      | PHeldFalse => Some (put w i (set_phase t PIdle))
      | PHeldDead => Some (put w i (set_phase t PLost))
      | _ => None
      end
  | ECancel i =>
      let t := w_tasks w i in
      match l_phase t with
      | PCreating => Some (put w i (set_phase t POrphan))
      | PCreated => Some (put w i (set_phase t PLost))
      | PRefused | PSleeping _ | PResetDone => Some (put w i (set_phase t PIdle))
      | PResetting => Some (put w i (set_phase t POrphanReset))
      | _ => None
      end
  | ELost i =>
      let t := w_tasks w i in
      match l_phase t with
      | PCreating => Some (put w i (set_phase t PHeldSent))    (* [Ok(())], lock.rs 43-44, 67-68 *)
      | PCreated => Some (put w i (set_phase t PHeldDead))
      | PRefused => Some (put w i (set_phase t PHeldFalse))    (* the refusal does not arrive: [Ok(())] too *)
      | PHolds => Some (put w i (set_phase t PHeldDead))
      | PSleeping _ | PResetDone => Some (put w i (set_phase t PIdle))   (* the next statement fails *)
      | PResetting => Some (put w i (set_phase t POrphanReset))
      | _ => None                                              (* a DROP on its way arrives or not: EExec, EFail *)
      end
  | EFail i =>
      let t := w_tasks w i in
      match l_phase t with
      | PCreating | PResetting => Some (put w i (set_phase t PIdle))
      | PDropping => Some (put w i (set_phase t PLost))
      | PHeldSent => Some (put w i (set_phase t PHeldFalse))
      | _ => None
      end
  | EReset n => Some (set_table w n false)
  end.

(** A history: the states passed through, from the initial one. *)
Inductive history : list (world * event) -> world -> Prop :=
| h_nil : history [] w_init
| h_step h w e w' : history h w -> lstep w e = Some w' -> history (h ++ [(w, e)]) w'.

(** Does the event drop lock [n] other than by its holder's release? *)
Definition resets (n : text) (s : world * event) : bool :=
  match snd s with
  | EReset m => text_eqb m n
  | EExec i => match l_phase (w_tasks (fst s) i) with PResetting | POrphanReset => text_eqb (l_name (w_tasks (fst s) i)) n | _ => false end
  | _ => false
  end.

(** The caller has a handle of lock [n]: [try_lock] or [lock] returned one and it has not been dropped. *)
Definition handle (p : phase) : bool := match p with PHolds | PHeldSent | PHeldFalse | PHeldDead => true | _ => false end.
Definition holds (w : world) (i : nat) (n : text) : Prop := handle (l_phase (w_tasks w i)) = true /\ l_name (w_tasks w i) = n.
(** ... and its connection to the server is alive. *)
Definition holds_live (w : world) (i : nat) (n : text) : Prop := l_phase (w_tasks w i) = PHolds /\ l_name (w_tasks w i) = n.
(** Task i is responsible for the lock table: from its creation to its removal. *)
Definition owning (p : phase) : bool := match p with PCreated | PHolds | PDropping | PLost | PHeldDead => true | _ => false end.
Definition owns (w : world) (i : nat) (n : text) : Prop := owning (l_phase (w_tasks w i)) = true /\ l_name (w_tasks w i) = n.
(** A migration that is waiting for the lock. *)
Definition waiting (p : phase) : bool := match p with PCreating | PCreated | PRefused | PSleeping _ | PResetting | PResetDone => true | _ => false end.
Definition patient (w : world) : Prop :=
  forall i, l_kind (w_tasks w i) = KMigrate -> waiting (l_phase (w_tasks w i)) = true -> w_now w - l_start (w_tasks w i) <= MIGRATE_PATIENCE.
(** A schedule carried out from a given state. *)
Inductive runs : world -> list event -> world -> Prop :=
| runs_nil w : runs w [] w
| runs_cons w e w1 es w2 : lstep w e = Some w1 -> runs w1 es w2 -> runs w (e :: es) w2.
(** Does the connection of a task break while it waits for the answer to its attempt at lock [n]? *)
Definition cuts (n : text) (s : world * event) : bool :=
  match snd s with
  | ELost i => match l_phase (w_tasks (fst s) i) with PCreating | PRefused => text_eqb (l_name (w_tasks (fst s) i)) n | _ => false end
  | _ => false
  end.
