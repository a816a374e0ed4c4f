(** What the functions built on [execute] see when the connection breaks.  [execute] (client.rs 525-534) reads the
    result stream to its end and reports the first exception in it; a stream that ends because the connection's
    task ended (client.rs 210-214) looks like one that ended because the server was done. *)
From Coq Require Import String.
From Verif Require Import Base Types Text Migrate.
Local Open Scope list_scope.

(** What became of a statement that a migration sent: the server's answer arrived, or the connection broke first.
    The flag is that of [Migrate.acquire]. *)
Inductive fate := Answered (r : reply) | Cut.
(** What [Client::execute] returned for each of them: [Ok(())] for the one that was cut (client.rs 529-533), the error of a closed
    request channel for every later one (client.rs 317-330; [closed] is its displayed text). *)
Fixpoint seen (closed : text) (fs : list (fate * bool)) : list (reply * bool) :=
  match fs with
  | [] => []
  | (Answered r, b) :: fs => (r, b) :: seen closed fs
  | (Cut, b) :: fs => (ROk, b) :: map (fun x => (RErr closed, snd x)) fs
  end.
Definition fate_at (fs : list (fate * bool)) (i : nat) : option fate := option_map fst (nth_error fs i).
