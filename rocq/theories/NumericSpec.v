(** The numbers that 256-bit integers, decimals and instants stand for. *)
From Verif Require Import Base Types LiteralSpec Numeric.

(** Two's complement *)
Definition signed256 (be : list N) : Z :=
  if be_number be <? 2 ^ 255 then Z.of_N (be_number be) else (Z.of_N (be_number be) - 2 ^ 256)%Z.
Definition is_256 (be : list N) : Prop := length be = 32%nat /\ Forall (fun b => b < 256) be.

(** Nanoseconds since the epoch. *)
Definition nanos_of (i : instant) : Z := (i_secs i * 1000000000 + Z.of_N (i_nanos i))%Z.

(** The number x / 10^p of a decimal value, as (x, p); two such pairs denote the same number. *)
Definition same_number (x : Z) (p : N) (y : Z) (q : N) : Prop := (x * 10 ^ Z.of_N q = y * 10 ^ Z.of_N p)%Z.
Definition decimal_of (v : value) : option (Z * N) :=
  match v with
  | VDecimal32 p x | VDecimal64 p x | VDecimal128 p x => Some (x, p)
  | VInt _ x => Some (x, 0)
  | VUInt _ x => Some (Z.of_N x, 0)
  | _ => None
  end.
