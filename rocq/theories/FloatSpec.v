(** What a double is worth: the rational number a finite IEEE-754 datum stands for. *)
From Coq Require Import ZArith QArith Floats.SpecFloat.
Local Open Scope Z_scope.

(** [m * 2^e] as a rational *)
Definition dyadic (m e : Z) : Q := if 0 <=? e then inject_Z (m * 2 ^ e) else Qmake m (Z.to_pos (2 ^ (- e))).
(** [None] for infinities and not-a-number *)
Definition f64_val (f : spec_float) : option Q :=
  match f with
  | S754_zero _ => Some 0%Q
  | S754_finite s m e => Some (dyadic (if s then Zneg m else Zpos m) e)
  | S754_infinity _ | S754_nan => None
  end.
(** A well-formed double: 53-bit mantissa, exponent in range, canonical. *)
Definition is_f64 (f : spec_float) : Prop := valid_binary 53 1024 f = true.
(** The number that a fixed-point value with [p] decimals and unscaled integer [x] stands for. *)
Definition fixed (p : N) (x : Z) : Q := Qmake x (Z.to_pos (10 ^ Z.of_N p)).
