(** What subscribers to progress are promised. *)
From Verif Require Import Base Types Text Progress Broadcast.
Local Open Scope list_scope.
Local Open Scope nat_scope.

(** A subscriber's notes account for a run of events if they are these events in order, each gap
    announced with its exact size, and the end is not followed by anything else. *)
Inductive accounts : list note -> list (text * progress) -> Prop :=
| acc_nil : accounts [] []
| acc_got e notes l : accounts notes l -> accounts (Got e :: notes) (e :: l)
| acc_gap n missed notes l : 0 < n -> length missed = n -> accounts notes l -> accounts (Lagged n :: notes) (missed ++ l)
| acc_end notes : Forall (eq NoMore) notes -> accounts (NoMore :: notes) [].

(** The events among the notes. *)
Fixpoint events_of (notes : list note) : list (text * progress) :=
  match notes with [] => [] | Got e :: r => e :: events_of r | _ :: r => events_of r end.
(** The events announced as missing. *)
Fixpoint missing (notes : list note) : nat :=
  match notes with [] => O | Lagged n :: r => n + missing r | _ :: r => missing r end.
