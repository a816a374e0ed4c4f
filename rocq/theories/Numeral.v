(** Specification: numbers written in decimal (C36, C50, C60, C69, C79). *)
From Coq Require Import ZArith.
From Verif Require Import Base.
Local Open Scope list_scope.
Local Open Scope N_scope.

(** A decimal numeral and its number: digits, most significant first. *)
Inductive numeral : list N -> N -> Prop :=
| nm_digit d : d < 10 -> numeral [48 + d] d
| nm_next s n d : numeral s n -> d < 10 -> numeral (s ++ [48 + d]) (10 * n + d).
(** A number of 64 bits without sign; a plus is allowed. *)
Definition unsigned_text (s : list N) (n : N) : Prop := n < 2 ^ 64 /\ (numeral s n \/ exists r, s = 43 :: r /\ numeral r n).
(** A number of [bits] bits with or without sign. *)
Definition signed_text (bits : Z) (s : list N) (z : Z) : Prop :=
  (- 2 ^ (bits - 1) <= z < 2 ^ (bits - 1))%Z /\
  ((exists n, z = Z.of_N n /\ (numeral s n \/ exists r, s = 43 :: r /\ numeral r n)) \/
   (exists n r, z = (- Z.of_N n)%Z /\ s = 45 :: r /\ numeral r n)).
