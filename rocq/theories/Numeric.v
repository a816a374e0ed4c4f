(** Model of 256-bit integers, fixed-point numbers, calendar types and decimals:
    values/int256.rs, values/fixed_point.rs, values/date.rs, values/decimal.rs. *)
From Verif Require Import Base Types.

(* ---------------- i256 / u256 ---------------- *)

(** [u128::from_be_bytes] / [to_be_bytes] *)
Definition from_be_bytes (l : list N) : N := fold_left (fun a b => a * 256 + b) l 0.
Definition to_be_bytes (n : nat) (x : N) : list N := rev (le_bytes n x).

(** values/int256.rs 41-50 and 104-113: [From<i256> for (u128, u128)], [From<u256> ..]. *)
Definition to_words (be : list N) : N * N := (from_be_bytes (firstn 16 be), from_be_bytes (skipn 16 be)).
(** values/int256.rs 52-59 and 115-122: [From<(u128, u128)>]. *)
Definition of_words (w : N * N) : list N := to_be_bytes 16 (fst w) ++ to_be_bytes 16 (snd w).
(** values/int256.rs 15-19 and 98-102: [From<i256> for u256] and back copy the bytes. *)
Definition i256_to_u256 (be : list N) : list N := be.
Definition u256_to_i256 (be : list N) : list N := be.
(** values/int256.rs 10, 70: derived [Ord] compares the arrays byte by byte. *)
Fixpoint cmp_bytes (a b : list N) : comparison :=
  match a, b with
  | [], [] => Eq
  | [], _ => Lt
  | _, [] => Gt
  | x :: a', y :: b' => match x ?= y with Eq => cmp_bytes a' b' | c => c end
  end.

(* ---------------- fixed point ---------------- *)

(** [10iN.pow(PRECISION as u32)] for an N-bit signed integer: panics on overflow (debug
    profile); [PRECISION as u32] truncates. *)
Definition pow10 (bits : Z) (p : N) : res Z :=
  let m := (10 ^ Z.of_N (p mod 2 ^ 32))%Z in
  if (m <? 2 ^ (bits - 1))%Z then Ok m else Panic.
(** values/fixed_point.rs 12-23, 66-77, 108-119: [modulus], [integer], [fraction] of
    FixedPoint32 / 64 / 128 ([bits]); Rust's / and % truncate towards zero. *)
Definition fp_modulus (bits : Z) (p : N) : res Z := pow10 bits p.
Definition fp_integer (bits : Z) (p : N) (x : Z) : res Z := m <- pow10 bits p ;; Ok (Z.quot x m).
Definition fp_fraction (bits : Z) (p : N) (x : Z) : res Z := m <- pow10 bits p ;; Ok (Z.rem x m).

(* ---------------- calendar ---------------- *)

(** A chrono [NaiveDate] as the number of days from 1970-01-01; a chrono [DateTime] as zone,
    seconds from the epoch, nanoseconds (chrono allows up to 1 999 999 999 for leap seconds). *)
Record instant := { i_zone : tz; i_secs : Z; i_nanos : N }.

(** values/date.rs 54-61, 73-77: [From<Date>] for chrono dates. *)
Definition date_to_chrono (d : N) : Z := Z.of_N d.
(** values/date.rs 63-71, 79-87: [num_days() as u16] wraps. *)
Definition date_of_chrono (days : Z) : N := Z.to_N (days mod 65536).

(** values/date.rs 147-153: always succeeds ([Err] cannot occur). *)
Definition datetime_to_chrono (z : tz) (t : N) : res instant := Ok {| i_zone := z; i_secs := Z.of_N t; i_nanos := 0 |}.
(** values/date.rs 167-176 [with_timezone(&Utc)]; 155-165 [fixed_offset()] likewise keeps the
    instant only. *)
Definition with_utc (i : instant) : instant := {| i_zone := UTC; i_secs := i_secs i; i_nanos := i_nanos i |}.
(** [timestamp().try_into()] to u32 *)
Definition to_u32 (z : Z) : res N := if ((0 <=? z) && (z <? 2 ^ 32))%Z then Ok (Z.to_N z) else Err EOther.
(** values/date.rs 178-184 *)
Definition datetime_of_chrono (i : instant) : res (tz * N) := t <- to_u32 (i_secs i) ;; Ok (i_zone i, t).
(** values/date.rs 186-202: FixedOffset and Utc instants become UTC. *)
Definition datetime_of_other (i : instant) : res (tz * N) := t <- to_u32 (i_secs i) ;; Ok (UTC, t).

(** values/date.rs 349-380, 460-490, 496-522 and the same arithmetic in 323-345, 396-416: DateTime64 with
    [p] decimals to chrono.  [10u64.pow(9 - p)] underflows for p > 9; [timestamp_opt(..).unwrap()]
    panics beyond chrono's range. (Precisions of 2^32 and more, which [as u32] truncates, are
    treated as such.) *)
Definition datetime64_to_chrono (p : N) (z : tz) (v : N) : res instant :=
  let p := p mod 2 ^ 32 in
  if 9 <? p then Panic
  else
    let seconds := v / 10 ^ p in
    let units := v mod 10 ^ p in
    let units_ns := units * 10 ^ (9 - p) in
    if 2 ^ 63 <=? seconds then Err EDeser
    else if 2 ^ 32 <=? units_ns then Err EDeser
    else if CHRONO_MAX_SECS <? seconds then Panic
    else Ok {| i_zone := z; i_secs := Z.of_N seconds; i_nanos := units_ns |}.
(** values/date.rs 420-458 [TryFrom<chrono::DateTime>], [try_from_utc], [try_from_tz]: the sum is
    checked u64 arithmetic (debug profile). *)
Definition datetime64_of_chrono (p : N) (i : instant) : res (tz * N) :=
  if (i_secs i <? 0)%Z then Err EOther
  else
    let p := p mod 2 ^ 32 in
    if 9 <? p then Panic
    else
      let whole := Z.to_N (i_secs i) * 10 ^ p in
      if 2 ^ 64 <=? whole then Panic
      else let total := whole + i_nanos i / 10 ^ (9 - p) in
        if 2 ^ 64 <=? total then Panic else Ok (i_zone i, total).
(** values/date.rs 305-315, 382-392: [ToSql] for chrono date-times: microseconds. *)
Definition chrono_to_sql (i : instant) : res value :=
  let micros := (i_secs i * 1000000 + Z.of_N (i_nanos i / 1000))%Z in
  if (micros <? 0)%Z then Err EDeser else Ok (VDateTime64 (i_zone i) (Z.to_N micros) 6).
(** values/date.rs 317-347, 394-418: [FromSql] for chrono date-times (zone kept for [Tz]). *)
Definition chrono_from_sql (t : ty) (v : value) : res instant :=
  match t with
  | TDateTime64 _ _ | TDateTime _ =>
      match v with
      | VDateTime64 z x p => datetime64_to_chrono p z x
      | VDateTime z x => datetime_to_chrono z x
      | _ => Panic
      end
  | _ => Err EDeser
  end.

(* ---------------- rust_decimal ---------------- *)

(** A rust_decimal number: mantissa of at most 96 bits and a scale of at most 28. *)
Record dec := { d_mantissa : Z; d_scale : N }.
Definition dec_ok (d : dec) : Prop := (Z.abs (d_mantissa d) < 2 ^ 96)%Z /\ d_scale d <= 28.

(** [Decimal::try_new] / [try_from_i128_with_scale]: fail on a scale above 28 or a mantissa
    beyond 96 bits. *)
Definition dec_try (m : Z) (scale : N) : res dec :=
  if (scale <=? 28) && (Z.abs m <? 2 ^ 96)%Z then Ok {| d_mantissa := m; d_scale := scale |} else Err EDeser.

(** values/decimal.rs 5-47 [FromSql for Decimal]; integers up to 64 bits use [Decimal::new]. *)
Definition dec_from_sql (v : value) : res dec :=
  match v with
  | VInt _ x => dec_try x 0
  | VUInt I128 x => if 2 ^ 127 <=? x then Err EDeser else dec_try (Z.of_N x) 0
  | VUInt _ x => dec_try (Z.of_N x) 0
  | VDecimal32 p x | VDecimal64 p x | VDecimal128 p x => dec_try x (p mod 2 ^ 32)
  | _ => Err EDeser
  end.

(** values/decimal.rs 55-64 [mantissa_to_scale]: [10i128.pow] panics on overflow. *)
Definition mantissa_to_scale (m : Z) (scale precision : N) : res Z :=
  if precision <? scale then Panic
  else if precision =? scale then Ok m
  else f <- pow10 128 (precision - scale) ;;
    if ((- 2 ^ 127 <=? m * f) && (m * f <? 2 ^ 127))%Z then Ok (m * f)%Z else Err ESer.
Definition to_signed (bits : Z) (x : Z) : res Z :=
  if ((- 2 ^ (bits - 1) <=? x) && (x <? 2 ^ (bits - 1)))%Z then Ok x else Err ESer.
(** values/decimal.rs 49-93 [ToSql for Decimal] *)
Definition dec_to_sql (d : dec) (hint : option ty) : res value :=
  match hint with
  | None => Ok (VDecimal128 (d_scale d) (d_mantissa d))
  | Some (TDecimal32 p) =>
      if d_scale d <=? p mod 2 ^ 32 then
        m <- mantissa_to_scale (d_mantissa d) (d_scale d) (p mod 2 ^ 32) ;; x <- to_signed 32 m ;; Ok (VDecimal32 p x)
      else Err ESer
  | Some (TDecimal64 p) =>
      if d_scale d <=? p mod 2 ^ 32 then
        m <- mantissa_to_scale (d_mantissa d) (d_scale d) (p mod 2 ^ 32) ;; x <- to_signed 64 m ;; Ok (VDecimal64 p x)
      else Err ESer
  | Some (TDecimal128 p) =>
      if d_scale d <=? p mod 2 ^ 32 then
        m <- mantissa_to_scale (d_mantissa d) (d_scale d) (p mod 2 ^ 32) ;; Ok (VDecimal128 p m)
      else Err ESer
  | Some _ => Err ESer
  end.
