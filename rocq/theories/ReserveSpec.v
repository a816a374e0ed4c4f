(** What a peer may make the client reserve: the sizes a type states itself, and how many
    reservations a type can need. *)
From Verif Require Import Base Types.

(** The lengths written in a type: of its fixed strings, and the arities of its tuples. *)
Fixpoint stated (t : ty) : list N :=
  match t with
  | TFixedString n => [n]
  | TArray t' | TNullable t' | TLowCard t' => stated t'
  | TTuple ts => lenN ts :: flat_map stated ts
  | TMap k v => stated k ++ stated v
  | _ => []
  end.

(** A factor that depends on the type alone. *)
Fixpoint weight (t : ty) : nat :=
  match t with
  | TString | TFixedString _ => 2
  | TArray t' | TNullable t' => weight t' + 1
  | TPoint => 3 | TRing => 4 | TPolygon => 5 | TMultiPolygon => 6
  | TTuple ts => 2 + fold_right (fun t n => weight t + n) 0 ts
  | TMap k v => weight k + weight v + 2
  | TLowCard t' => 2 * weight t' + 1
  | _ => 1
  end%nat.

(** The reservations that ask for memory at all ([Vec::with_capacity(0)] does not). *)
Definition grabs (l : list N) : nat := length (filter (fun n => negb (n =? 0)) l).

(** The type [t] is written out in the bytes [inp] (as UTF-8 text that the client's own parser reads). *)
From Verif Require Import Text TypeText Utf8.
Definition announces (U : unicode) (D : tzdb) (inp : list N) (t : ty) : Prop :=
  exists before bytes name behind,
    inp = before ++ bytes ++ behind /\ utf8_decode bytes = Some name /\ parse_ty U D name = Ok t.
