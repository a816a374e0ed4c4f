(** IEEE-754 double precision arithmetic as used by the conversions of fixed-point numbers. *)
From Coq Require Import ZArith NArith List Floats.SpecFloat.
From Verif Require Import Base Types Numeric.
Local Open Scope Z_scope.

(** Rust's [f64]: 53 bits of mantissa, exponents below 1024.  [SpecFloat] (Coq's standard library)
    is an executable definition of the IEEE-754 operations, rounding to nearest, ties to even,
    which is what Rust specifies for [as f64], [+] and [/]. *)
Definition f64 : Set := spec_float.
(** [x as f64] for an integer [x] *)
Definition f64_of_int (z : Z) : f64 := binary_normalize 53 1024 z 0 false.
Definition f64_add (a b : f64) : f64 := SFadd 53 1024 a b.
Definition f64_div (a b : f64) : f64 := SFdiv 53 1024 a b.

(** values/fixed_point.rs 46-50, 97-101, 139-143: [From<FixedPointN<PRECISION>> for f64],
    [fp.integer() as f64 + (fp.fraction() as f64 / fp.modulus() as f64)]. *)
Definition fp_to_f64 (bits : Z) (p : N) (x : Z) : res f64 :=
  i <- fp_integer bits p x ;;
  f <- fp_fraction bits p x ;;
  m <- fp_modulus bits p ;;
  Ok (f64_add (f64_of_int i) (f64_div (f64_of_int f) (f64_of_int m))).
