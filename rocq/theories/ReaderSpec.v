(** Specification of C30: decoding a byte stream in which halves of packets may get lost. *)
From Verif Require Import Base Protocol ReaderLoop.

(** [lossy C n bs ps left]: the bytes [bs] are decoded packet by packet into [ps], [left] being
    not decoded yet, except that [n] times the beginning of a packet was forgotten and decoding
    went on with the byte behind it. *)
Inductive lossy (C : conn) : nat -> list N -> list packet -> list N -> Prop :=
| lo_end bs : lossy C 0 bs [] bs
| lo_packet n bs p rest ps left : read_packet C bs = Ok (p, rest) -> lossy C n rest ps left -> lossy C n bs (p :: ps) left
| lo_lost n half rest ps left : half <> [] -> read_packet C half = Err EIo -> lossy C n rest ps left -> lossy C (S n) (half ++ rest) ps left.

(** How many requests are taken while a packet is half read. *)
Fixpoint disturbances (C : conn) (r : reader) (es : list revent) : nat :=
  match es with
  | [] => 0
  | e :: es => (match e, r_partial r with Request, _ :: _ => 1 | _, _ => 0 end + disturbances C (rstep C r e) es)%nat
  end.
