(** C75: the double that a fixed-point number converts to. *)
From Coq Require Import ZArith NArith QArith Qabs Floats.SpecFloat.
From Verif Require Import Base Types Numeric Float64 FloatSpec FloatProofs FloatMono.
Local Open Scope Z_scope.

(** The conversion of any value of any precision that fits the integer type gives a finite double
    within 3 (FixedPoint32), 4 (FixedPoint64), 5 (FixedPoint128) times 2^-53 of the number, relatively;
    in particular it has the sign of the number and is zero only for zero. *)
Theorem C75_close : forall bits p x k,
  (bits = 32 /\ k = 3 \/ bits = 64 /\ k = 4 \/ bits = 128 /\ k = 5) ->
  (p < 2 ^ 32)%N -> 10 ^ Z.of_N p < 2 ^ (bits - 1) -> - 2 ^ (bits - 1) <= x < 2 ^ (bits - 1) ->
  exists f q, fp_to_f64 bits p x = Ok f /\ is_f64 f /\ f64_val f = Some q /\
    (Qabs (q - fixed p x) <= Qabs (fixed p x) * (k # 2 ^ 53))%Q.
Proof. exact close. Qed.
Print Assumptions C75_close.
Example C75_close_nv : exists f, fp_to_f64 64 5 (-123456789) = Ok f /\ f64_val f = Some (dyadic (-5429687001335527) (-42)).
Proof. eexists. split; vm_compute; reflexivity. Qed.

(** A larger number never becomes a smaller double. *)
Theorem C75_monotone : forall bits p x y, 1 <= bits <= 128 -> (p < 2 ^ 32)%N -> 10 ^ Z.of_N p < 2 ^ (bits - 1) ->
  - 2 ^ (bits - 1) <= x -> x <= y -> y < 2 ^ (bits - 1) ->
  exists f g q r, fp_to_f64 bits p x = Ok f /\ fp_to_f64 bits p y = Ok g /\ f64_val f = Some q /\ f64_val g = Some r /\ (q <= r)%Q.
Proof. exact mono. Qed.
Print Assumptions C75_monotone.
(** 0.99999999999999999999 after 2^53+2 rounds up to 1, and still does not pass 2^53+3. *)
Example C75_monotone_nv :
  let x := (2 ^ 53 + 2) * 10 ^ 20 + (10 ^ 20 - 1) in
  fp_to_f64 128 20 x = Ok (S754_finite false (2 ^ 52 + 2) 1) /\ fp_to_f64 128 20 (x + 1) = Ok (S754_finite false (2 ^ 52 + 2) 1).
Proof. split; vm_compute; reflexivity. Qed.

(** Up to 2^49 units different numbers become different doubles (so every FixedPoint32 can be told apart). *)
Theorem C75_injective : forall bits p x y, (bits = 32 \/ bits = 64 \/ bits = 128) -> (p < 2 ^ 32)%N -> 10 ^ Z.of_N p < 2 ^ (bits - 1) ->
  - 2 ^ (bits - 1) <= x -> x < y -> y < 2 ^ (bits - 1) -> Z.abs x <= 2 ^ 49 -> Z.abs y <= 2 ^ 49 ->
  exists f g q r, fp_to_f64 bits p x = Ok f /\ fp_to_f64 bits p y = Ok g /\ f64_val f = Some q /\ f64_val g = Some r /\ (q < r)%Q.
Proof. exact strict. Qed.
Print Assumptions C75_injective.
Example C75_injective_nv : fp_to_f64 32 9 (2 ^ 31 - 2) <> fp_to_f64 32 9 (2 ^ 31 - 1) /\ Z.abs (2 ^ 31 - 1) <= 2 ^ 49.
Proof. split; vm_compute; discriminate. Qed.

(** Whole numbers up to 2^53 are exact at every precision. *)
Theorem C75_integers : forall bits p v, 1 <= bits <= 128 -> (p < 2 ^ 32)%N -> 10 ^ Z.of_N p < 2 ^ (bits - 1) ->
  - 2 ^ (bits - 1) <= v * 10 ^ Z.of_N p < 2 ^ (bits - 1) -> Z.abs v <= 2 ^ 53 ->
  exists f q, fp_to_f64 bits p (v * 10 ^ Z.of_N p) = Ok f /\ f64_val f = Some q /\ (q == inject_Z v)%Q.
Proof. exact exact_int. Qed.
Print Assumptions C75_integers.
Example C75_integers_nv : fp_to_f64 128 20 (-7 * 10 ^ 20) = Ok (S754_finite true (7 * 2 ^ 50) (-50)).
Proof. vm_compute. reflexivity. Qed.

(** A number that is a double ([a * 2^e] with a 53-bit [a]) converts to exactly that double, when
    its units fit 53 bits and the precision is at most 22 (so for every FixedPoint32). *)
Theorem C75_exact : forall bits p x a e, 1 <= bits <= 128 -> (p <= 22)%N -> 10 ^ Z.of_N p < 2 ^ (bits - 1) ->
  - 2 ^ (bits - 1) <= x < 2 ^ (bits - 1) -> Z.abs x <= 2 ^ 53 -> Z.abs a <= 2 ^ 53 -> -1074 <= e -> (fixed p x == dyadic a e)%Q ->
  exists f q, fp_to_f64 bits p x = Ok f /\ f64_val f = Some q /\ (q == fixed p x)%Q.
Proof. exact exact_dyadic. Qed.
Print Assumptions C75_exact.
(** 12.375 *)
Example C75_exact_nv : (fixed 3 12375 == dyadic 99 (-3))%Q /\ fp_to_f64 32 3 12375 = Ok (S754_finite false (99 * 2 ^ 46) (-49)).
Proof. split; vm_compute; reflexivity. Qed.

(** The only failure: 10^PRECISION does not fit the integer type; then every conversion panics. *)
Theorem C75_panics : forall bits p x, (p < 2 ^ 32)%N -> (fp_to_f64 bits p x = Panic <-> 2 ^ (bits - 1) <= 10 ^ Z.of_N p).
Proof. exact panics. Qed.
Print Assumptions C75_panics.
Example C75_panics_nv : fp_to_f64 32 10 1 = Panic /\ fp_to_f64 32 9 1 <> Panic.
Proof. split; vm_compute; [reflexivity|discriminate]. Qed.

(** The result is not always the double nearest to the number: 1.14 becomes 1.1400000000000001. *)
Theorem C75_not_nearest_refuted : exists p x f g q r, - 2 ^ 31 <= x < 2 ^ 31 /\ fp_to_f64 32 p x = Ok f /\ is_f64 g /\
  f64_val f = Some q /\ f64_val g = Some r /\ (Qabs (r - fixed p x) < Qabs (q - fixed p x))%Q.
Proof.
  exists 2%N, 114, (S754_finite false 5134103575202366 (-52)), (S754_finite false 5134103575202365 (-52)).
  do 2 eexists. split; [split; [discriminate|reflexivity]|]. repeat split; vm_compute; reflexivity.
Qed.
Print Assumptions C75_not_nearest_refuted.
