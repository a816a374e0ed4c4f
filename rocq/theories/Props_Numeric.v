(** Properties C36, C37, C38, C58: calendar types, 256-bit integers, fixed point, decimals. *)
From Coq Require Import Lia.
From Verif Require Import Base Types Text Literal LiteralSpec LiteralProofs Numeric NumericSpec NumericProofs.

(* ===================== C37 ===================== *)

(** Every pair of 128-bit words comes back from the 256-bit integer made of it, and every
    256-bit integer from its words. *)
Theorem C37_words_roundtrip :
  (forall be, is_256 be -> of_words (to_words be) = be) /\
  (forall hi lo, hi < 2 ^ 128 -> lo < 2 ^ 128 -> is_256 (of_words (hi, lo)) /\ to_words (of_words (hi, lo)) = (hi, lo)).
Proof. split; [exact words_of_bytes|]. intros hi lo H L. split; [apply of_words_256|now apply bytes_of_words]. Qed.

(** The first word is the high one: the value is hi * 2^128 + lo. *)
Theorem C37_words_value : forall be, is_256 be ->
  be_number be = fst (to_words be) * 2 ^ 128 + snd (to_words be) /\ fst (to_words be) < 2 ^ 128 /\ snd (to_words be) < 2 ^ 128.
Proof.
  intros be H. split; [now apply words_value|]. destruct H as [L B]. unfold to_words. cbn [fst snd]. rewrite !from_be_number.
  rewrite <- (firstn_skipn 16 be) in B. apply Forall_app in B as [B1 B2].
  apply be_number_bound in B1. apply be_number_bound in B2. unfold lenN in B1, B2.
  rewrite firstn_length, L in B1. rewrite skipn_length, L in B2. split; [exact B1|exact B2].
Qed.

(** Going from signed to unsigned and back keeps the bits: the value is the same modulo 2^256. *)
Theorem C37_reinterpret : forall be, is_256 be ->
  u256_to_i256 (i256_to_u256 be) = be /\
  (Z.of_N (be_number (i256_to_u256 be)) = signed256 be mod 2 ^ 256)%Z /\ (- 2 ^ 255 <= signed256 be < 2 ^ 255)%Z.
Proof.
  intros be H. split; [reflexivity|]. unfold i256_to_u256, signed256. apply number_256_bound in H.
  generalize dependent (be_number be). intros n B. destruct (N.ltb_spec n (2 ^ 255)) as [L|L].
  - split; [rewrite Z.mod_small; lia|lia].
  - split; [|lia]. replace (Z.of_N n - 2 ^ 256)%Z with (Z.of_N n + (-1) * 2 ^ 256)%Z by lia.
    rewrite Z.mod_add by lia. rewrite Z.mod_small; lia.
Qed.

(** Comparison of unsigned integers is the numeric one. *)
Theorem C37_unsigned_order : forall a b, is_256 a -> is_256 b -> cmp_bytes a b = (be_number a ?= be_number b).
Proof. intros a b [La Ba] [Lb Bb]. apply cmp_bytes_spec; [congruence|assumption|assumption]. Qed.

Lemma signed256_cmp a b : is_256 a -> is_256 b ->
  (cmp_bytes a b = (signed256 a ?= signed256 b)%Z <-> ((0 <= signed256 a)%Z <-> (0 <= signed256 b)%Z)).
Proof.
  intros A B. rewrite C37_unsigned_order by assumption. unfold signed256. apply number_256_bound in A. apply number_256_bound in B.
  generalize dependent (be_number a). generalize dependent (be_number b). intros y Y x X.
  destruct (N.ltb_spec x (2 ^ 255)), (N.ltb_spec y (2 ^ 255));
    destruct (N.compare_spec x y); destruct (Z.compare_spec (Z.of_N x - 2 ^ 256) (Z.of_N y - 2 ^ 256));
    destruct (Z.compare_spec (Z.of_N x - 2 ^ 256) (Z.of_N y)); destruct (Z.compare_spec (Z.of_N x) (Z.of_N y - 2 ^ 256));
    destruct (Z.compare_spec (Z.of_N x) (Z.of_N y)); try lia; split; try discriminate; intuition (lia || congruence).
Qed.
(** Comparison of signed integers is the numeric one exactly between numbers of the same sign
    (the bytes are compared unsigned, so every negative number is "greater"). *)
Theorem C37_signed_order_iff : forall a b, is_256 a -> is_256 b ->
  (cmp_bytes a b = (signed256 a ?= signed256 b)%Z <-> ((0 <= signed256 a)%Z <-> (0 <= signed256 b)%Z)).
Proof. exact signed256_cmp. Qed.

(** The hex text in queries denotes the unsigned value of the bits. *)
Theorem C37_hex_value : forall be, is_256 be -> read_nat (show_hex256 be) = Some (be_number be, []).
Proof.
  intros be [L B]. rewrite <- (app_nil_r (show_hex256 be)). apply read_nat_hex256; [exact B|intros ->; discriminate|reflexivity].
Qed.

Definition minus_one : list N := repeat 255 32.
Definition plus_one : list N := repeat 0 31 ++ [1].
Example C37_nonvacuous : is_256 minus_one /\ is_256 plus_one /\ signed256 minus_one = (-1)%Z /\ signed256 plus_one = 1%Z /\
  cmp_bytes minus_one plus_one = Gt /\ to_words (of_words (5, 7)) = (5, 7) /\ be_number (of_words (1, 0)) = 2 ^ 128.
Proof.
  repeat split; try (vm_compute; reflexivity).
  - unfold minus_one. cbn [repeat]. repeat constructor.
  - unfold plus_one. cbn [repeat app]. repeat constructor.
Qed.

(* ===================== C38 ===================== *)

(** The parts recompose to the raw value, the fraction is smaller than the modulus, and both
    carry the sign of the value. *)
Theorem C38_decompose : forall bits p x i f m,
  fp_integer bits p x = Ok i -> fp_fraction bits p x = Ok f -> fp_modulus bits p = Ok m ->
  (x = i * m + f /\ Z.abs f < m /\ 0 <= f * x /\ 0 <= i * x)%Z.
Proof. exact fixed_decompose. Qed.

(** They are defined exactly for the precisions the type can hold: 9, 18, 38 digits. *)
Definition max_precision (bits : Z) : option N :=
  if (bits =? 32)%Z then Some 9 else if (bits =? 64)%Z then Some 18 else if (bits =? 128)%Z then Some 38 else None.
Theorem C38_defined_iff : forall bits k p x, max_precision bits = Some k -> p < 2 ^ 32 ->
  (p <= k -> fp_modulus bits p = Ok (10 ^ Z.of_N p)%Z /\ fp_integer bits p x = Ok (Z.quot x (10 ^ Z.of_N p)) /\
     fp_fraction bits p x = Ok (Z.rem x (10 ^ Z.of_N p))) /\
  (k < p -> fp_modulus bits p = Panic /\ fp_integer bits p x = Panic /\ fp_fraction bits p x = Panic).
Proof.
  intros bits k p x K P.
  assert (D : (10 ^ Z.of_N k < 2 ^ (bits - 1) <= 10 ^ Z.of_N (k + 1))%Z).
  { unfold max_precision in K.
    destruct (Z.eqb_spec bits 32) as [->|]; [injection K as <-; vm_compute; intuition discriminate|].
    destruct (Z.eqb_spec bits 64) as [->|]; [injection K as <-; vm_compute; intuition discriminate|].
    destruct (Z.eqb_spec bits 128) as [->|]; [injection K as <-; vm_compute; intuition discriminate|discriminate]. }
  destruct D as [D1 D2]. unfold fp_modulus, fp_integer, fp_fraction. split; intros L.
  - rewrite (pow10_defined bits p k P L D1). auto.
  - rewrite (pow10_panics bits p (k + 1) P ltac:(lia) D2). auto.
Qed.

Example C38_nonvacuous : fp_integer 32 2 (-1234) = Ok (-12)%Z /\ fp_fraction 32 2 (-1234) = Ok (-34)%Z /\
  fp_modulus 32 9 = Ok 1000000000%Z /\ fp_modulus 32 10 = Panic /\ fp_integer 128 38 (10 ^ 38) = Ok 1%Z.
Proof. vm_compute. repeat split; reflexivity. Qed.

(* ===================== C36 ===================== *)

(** Dates: to chrono and back is the identity; the other way exactly on 1970-01-01 .. 2149-06-06,
    other dates are silently changed (there is no error). *)
Theorem C36_date : (forall d, d < 65536 -> date_of_chrono (date_to_chrono d) = d) /\
  (forall days, date_to_chrono (date_of_chrono days) = days <-> (0 <= days < 65536)%Z).
Proof. split; [exact date_roundtrip|exact date_back_iff]. Qed.

(** DateTime: to chrono and back is the identity (zone included); the conversion from chrono
    keeps the whole second, and instants outside 1970 .. 2106 are reported. *)
Theorem C36_datetime : (forall z t, t < 2 ^ 32 -> (i <- datetime_to_chrono z t ;; datetime_of_chrono i) = Ok (z, t)) /\
  (forall i, (0 <= i_secs i < 2 ^ 32)%Z -> datetime_of_chrono i = Ok (i_zone i, Z.to_N (i_secs i)) /\
     datetime_of_other i = Ok (UTC, Z.to_N (i_secs i))) /\
  (forall i, ~ (0 <= i_secs i < 2 ^ 32)%Z -> exists e, datetime_of_chrono i = Err e /\ datetime_of_other i = Err e).
Proof.
  split; [exact datetime_roundtrip|]. unfold datetime_of_chrono, datetime_of_other, to_u32. split.
  - intros i B. replace ((0 <=? i_secs i) && (i_secs i <? 2 ^ 32))%Z with true by lia. auto.
  - intros i B. replace ((0 <=? i_secs i) && (i_secs i <? 2 ^ 32))%Z with false by lia. cbn [rbind]. eauto.
Qed.

(** DateTime64 with up to nine digits: to chrono and back is the identity whenever chrono can
    hold the instant; the instant is exactly v / 10^p seconds. *)
Theorem C36_datetime64 : forall p z v, p <= 9 -> v < 2 ^ 64 -> v / 10 ^ p <= CHRONO_MAX_SECS ->
  (i <- datetime64_to_chrono p z v ;; datetime64_of_chrono p i) = Ok (z, v) /\
  exists i, datetime64_to_chrono p z v = Ok i /\ i_zone i = z /\ (nanos_of i * 10 ^ Z.of_N p = Z.of_N v * 10 ^ 9)%Z.
Proof.
  intros p z v P V R. split; [now apply datetime64_roundtrip|]. rewrite datetime64_to_chrono_ok by assumption.
  eexists. split; [reflexivity|]. split; [reflexivity|]. unfold nanos_of. cbn [i_secs i_nanos].
  pose proof (N.div_mod v (10 ^ p) (N.pow_nonzero 10 p ltac:(discriminate))) as D. pose proof (pow_split p P) as S.
  assert (E : Z.of_N (10 ^ p) = (10 ^ Z.of_N p)%Z) by (rewrite N2Z.inj_pow; reflexivity). rewrite <- E.
  apply (f_equal Z.of_N) in D. rewrite N2Z.inj_add, N2Z.inj_mul in D. apply (f_equal Z.of_N) in S. rewrite N2Z.inj_mul in S.
  change (Z.of_N (10 ^ 9)) with 1000000000%Z in S. change (10 ^ 9)%Z with 1000000000%Z. rewrite N2Z.inj_mul.
  generalize dependent (Z.of_N (10 ^ p)). generalize dependent (Z.of_N (10 ^ (9 - p))).
  generalize (Z.of_N (v / 10 ^ p)), (Z.of_N (v mod 10 ^ p)), (Z.of_N v). intros a b c q Pw E S D. rewrite E.
  transitivity (Pw * a * 1000000000 + b * (Pw * q))%Z; [ring|]. rewrite S. ring.
Qed.

(** From chrono: the instant is truncated to the precision, negative instants are reported, and
    instants the 64 bits cannot hold panic (overflow of the multiplication). *)
Theorem C36_datetime64_back : forall p i, p <= 9 -> i_nanos i < 10 ^ 9 -> (i_secs i <= Z.of_N CHRONO_MAX_SECS)%Z ->
  (forall z v, datetime64_of_chrono p i = Ok (z, v) -> z = i_zone i /\ v < 2 ^ 64 /\
     datetime64_to_chrono p z v = Ok {| i_zone := i_zone i; i_secs := i_secs i; i_nanos := i_nanos i - i_nanos i mod 10 ^ (9 - p) |}) /\
  ((exists e, datetime64_of_chrono p i = Err e) <-> (i_secs i < 0)%Z) /\
  (datetime64_of_chrono p i = Panic <-> (0 <= i_secs i)%Z /\ 2 ^ 64 <= Z.to_N (i_secs i) * 10 ^ p + i_nanos i / 10 ^ (9 - p)).
Proof.
  intros p i P NB C. unfold datetime64_of_chrono. rewrite (N.mod_small p (2 ^ 32)) by lia. replace (9 <? p) with false by lia. split; [|split].
  - intros z v H. assert (S : (0 <= i_secs i)%Z) by (destruct (Z.ltb_spec (i_secs i) 0) in H; [discriminate|assumption]).
    assert (V : v < 2 ^ 64).
    { destruct (_ <? 0)%Z; [discriminate|]. destruct (_ <=? _); [discriminate|]. destruct (N.leb_spec (2 ^ 64) (Z.to_N (i_secs i) * 10 ^ p + i_nanos i / 10 ^ (9 - p))); [discriminate|].
      injection H as _ <-. assumption. }
    assert (Q : datetime64_of_chrono p i = Ok (z, v)).
    { unfold datetime64_of_chrono. rewrite (N.mod_small p (2 ^ 32)) by lia. replace (9 <? p) with false by lia. exact H. }
    destruct (datetime64_back p i z v P S NB C Q) as [Z1 Z2]. auto.
  - destruct (Z.ltb_spec (i_secs i) 0); [split; [lia|eauto]|].
    generalize (Z.to_N (i_secs i) * 10 ^ p), (i_nanos i / 10 ^ (9 - p)). intros a b.
    destruct (2 ^ 64 <=? a); [split; [intros [e X]; discriminate|lia]|]. destruct (2 ^ 64 <=? a + b); (split; [intros [e X]; discriminate|lia]).
  - destruct (Z.ltb_spec (i_secs i) 0) as [S|S]; [split; [discriminate|lia]|].
    generalize (Z.to_N (i_secs i) * 10 ^ p), (i_nanos i / 10 ^ (9 - p)). intros a b.
    destruct (N.leb_spec (2 ^ 64) a); [split; [lia|reflexivity]|].
    destruct (N.leb_spec (2 ^ 64) (a + b)); split; try discriminate; try reflexivity; lia.
Qed.

(** More than nine digits: every conversion panics. *)
Theorem C36_datetime64_precision : forall p z v, 9 < p < 2 ^ 32 -> datetime64_to_chrono p z v = Panic.
Proof.
  intros p z v P. unfold datetime64_to_chrono. rewrite (N.mod_small p (2 ^ 32)) by lia. now replace (9 <? p) with true by lia.
Qed.

(** A chrono instant sent to the server and read back is the instant truncated to microseconds;
    instants before the epoch are reported when sending. *)
Theorem C36_chrono_sql : forall i z p, i_nanos i < 10 ^ 9 ->
  ((0 <= i_secs i <= Z.of_N CHRONO_MAX_SECS)%Z -> exists v, chrono_to_sql i = Ok v /\
     chrono_from_sql (TDateTime64 p z) v = Ok {| i_zone := i_zone i; i_secs := i_secs i; i_nanos := i_nanos i - i_nanos i mod 1000 |}) /\
  ((i_secs i < 0)%Z -> exists e, chrono_to_sql i = Err e).
Proof.
  intros i z p NB. change (10 ^ 9) with 1000000000 in NB. assert (F : i_nanos i / 1000 < 1000000) by (apply N.div_lt_upper_bound; lia).
  split.
  - intros B.
    assert (X : exists v, chrono_to_sql i = Ok v).
    { unfold chrono_to_sql. generalize dependent (i_nanos i / 1000). intros k K.
      replace (i_secs i * 1000000 + Z.of_N k <? 0)%Z with false by lia. eauto. }
    destruct X as [v X]. exists v. split; [exact X|]. now apply (chrono_sql_roundtrip z p i v B).
  - intros B. unfold chrono_to_sql. generalize dependent (i_nanos i / 1000). intros k K.
    replace (i_secs i * 1000000 + Z.of_N k <? 0)%Z with true by lia. eauto.
Qed.

(** Every date-time value of either kind, in a column of either kind, read as a chrono date-time: the
    zone of the value, and exactly its instant, counted in units of the value's own precision. *)
Theorem C36_chrono_from_sql : forall t, (exists p z, t = TDateTime64 p z) \/ (exists z, t = TDateTime z) ->
  (forall z x p, p <= 9 -> x / 10 ^ p <= CHRONO_MAX_SECS -> exists secs nanos,
     chrono_from_sql t (VDateTime64 z x p) = Ok {| i_zone := z; i_secs := Z.of_N secs; i_nanos := nanos |} /\
     nanos < 10 ^ 9 /\ secs * 10 ^ 9 + nanos = x * 10 ^ (9 - p)) /\
  (forall z x, x < 2 ^ 32 -> chrono_from_sql t (VDateTime z x) = Ok {| i_zone := z; i_secs := Z.of_N x; i_nanos := 0 |}).
Proof. exact chrono_from_sql_exact. Qed.

Example C36_nonvacuous :
  datetime64_to_chrono 3 UTC 1700000000123 = Ok {| i_zone := UTC; i_secs := 1700000000; i_nanos := 123000000 |} /\
  datetime64_of_chrono 3 {| i_zone := UTC; i_secs := 1700000000; i_nanos := 123456789 |} = Ok (UTC, 1700000000123) /\
  datetime64_of_chrono 9 {| i_zone := UTC; i_secs := 20000000000; i_nanos := 0 |} = Panic /\
  date_of_chrono (-1) = 65535 /\ 1700000000123 / 10 ^ 3 <= CHRONO_MAX_SECS /\
  (exists v, chrono_to_sql {| i_zone := UTC; i_secs := 1; i_nanos := 1999 |} = Ok v /\ v = VDateTime64 UTC 1000001 6).
Proof. vm_compute. repeat split; try reflexivity; try discriminate. eauto. Qed.

(* ===================== C58 ===================== *)

(** A decimal converted to a column value denotes the same number, whatever the precision of the
    column, or the conversion is refused. *)
Theorem C58_to_sql_same_number : forall d hint v, d_scale d <= 28 -> dec_to_sql d hint = Ok v ->
  (forall p, hint = Some (TDecimal32 p) \/ hint = Some (TDecimal64 p) \/ hint = Some (TDecimal128 p) -> p < 2 ^ 32) ->
  exists x p, decimal_of v = Some (x, p) /\ same_number x p (d_mantissa d) (d_scale d).
Proof. exact dec_to_sql_same. Qed.

(** A column value converted to a decimal denotes the same number and is a valid decimal. *)
Theorem C58_from_sql_same_number : forall v d x p, decimal_of v = Some (x, p) -> p < 2 ^ 32 -> dec_from_sql v = Ok d ->
  d_mantissa d = x /\ d_scale d = p /\ dec_ok d.
Proof. exact dec_from_sql_same. Qed.

(** Exactly the representable ones are accepted when reading. *)
Theorem C58_from_sql_accepts : forall v x p, decimal_of v = Some (x, p) -> p < 2 ^ 32 ->
  ((exists d, dec_from_sql v = Ok d) <-> p <= 28 /\ (Z.abs x < 2 ^ 96)%Z) /\ dec_from_sql v <> Panic.
Proof.
  assert (T : forall m s, ((exists d, dec_try m s = Ok d) <-> s <= 28 /\ (Z.abs m < 2 ^ 96)%Z) /\ dec_try m s <> Panic).
  { intros m s. unfold dec_try. destruct (N.leb_spec s 28), (Z.ltb_spec (Z.abs m) (2 ^ 96)); cbn [andb]; (split; [split|discriminate]);
      try (intros [? ?]; lia); try (intros [? ?]; discriminate); eauto. }
  intros v x p D P. destruct v; cbn [decimal_of] in D; try discriminate; injection D as <- <-; cbn [dec_from_sql].
  - apply T.
  - destruct w; try apply T. destruct (N.leb_spec (2 ^ 127) x0); [|apply T]. split; [|discriminate]. split; [intros [? ?]; discriminate|lia].
  - rewrite N.mod_small by exact P. apply T.
  - rewrite N.mod_small by exact P. apply T.
  - rewrite N.mod_small by exact P. apply T.
Qed.
(** Any other value is refused with a deserialization error. *)
Theorem C58_from_sql_other : forall v, decimal_of v = None -> dec_from_sql v = Err EDeser.
Proof. intros v D. destruct v; try reflexivity; try discriminate D. Qed.
Print Assumptions C58_from_sql_other.
Example C58_from_sql_other_nonvacuous : decimal_of (VString [49]) = None /\ decimal_of VNull = None /\ decimal_of (VFloat64 0) = None.
Proof. repeat split. Qed.

(** Sending then reading gives back the same number. *)
Theorem C58_roundtrip : forall d hint v d', dec_ok d -> dec_to_sql d hint = Ok v ->
  (forall p, hint = Some (TDecimal32 p) \/ hint = Some (TDecimal64 p) \/ hint = Some (TDecimal128 p) -> p < 2 ^ 32) ->
  dec_from_sql v = Ok d' -> same_number (d_mantissa d') (d_scale d') (d_mantissa d) (d_scale d).
Proof.
  intros d hint v d' [_ S] H PB F. assert (H' := H). apply dec_to_sql_same in H as (x & p & D & SN); [|exact S|exact PB].
  assert (P : p < 2 ^ 32).
  { destruct hint as [t|]; [|cbn [dec_to_sql] in H'; injection H' as <-; cbn [decimal_of] in D; injection D as _ <-; lia].
    destruct t; cbn [dec_to_sql] in H'; try discriminate;
      (destruct (_ <=? _); [|discriminate]); (destruct (mantissa_to_scale _ _ _); cbn [rbind] in H'; try discriminate);
      try (destruct (to_signed _ _); cbn [rbind] in H'; try discriminate); injection H' as <-; cbn [decimal_of] in D; injection D as _ <-;
      apply PB; auto. }
  apply (dec_from_sql_same v d' x p D P) in F as (-> & -> & _). exact SN.
Qed.

(** The conversion panics only when the column asks for 39 digits or more beyond the decimal's scale. *)
Theorem C58_to_sql_panics_iff : forall d p, d_scale d <= 28 -> p < 2 ^ 32 ->
  (dec_to_sql d (Some (TDecimal128 p)) = Panic <-> d_scale d + 39 <= p).
Proof.
  intros d p S P. cbn [dec_to_sql]. rewrite N.mod_small by exact P. destruct (N.leb_spec (d_scale d) p) as [L|L]; [|split; [discriminate|lia]].
  unfold mantissa_to_scale. replace (p <? d_scale d) with false by lia. destruct (N.eqb_spec p (d_scale d)) as [->|NE]; [split; [discriminate|lia]|].
  destruct (N.leb_spec 39 (p - d_scale d)) as [G|G].
  - rewrite (pow10_panics 128 (p - d_scale d) 39 ltac:(lia) G ltac:(vm_compute; discriminate)). cbn [rbind]. split; [lia|reflexivity].
  - rewrite (pow10_defined 128 (p - d_scale d) 38 ltac:(lia) ltac:(lia) ltac:(vm_compute; reflexivity)). cbn [rbind].
    destruct (_ && _); cbn [rbind]; (split; [discriminate|lia]).
Qed.

(** Exactly the decimals that the column can hold are accepted when sending, and then the value is the
    mantissa scaled to the column's precision (which must ask for fewer than 39 more digits, see below). *)
Theorem C58_to_sql_accepts : forall d t bits mk p v, p < 2 ^ 32 ->
  In (t, bits, mk) [(TDecimal32 p, 32%Z, VDecimal32 p); (TDecimal64 p, 64%Z, VDecimal64 p); (TDecimal128 p, 128%Z, VDecimal128 p)] ->
  (Z.abs (d_mantissa d) < 2 ^ 96)%Z ->
  (dec_to_sql d (Some t) = Ok v <->
   d_scale d <= p < d_scale d + 39 /\
   (- 2 ^ (bits - 1) <= d_mantissa d * 10 ^ Z.of_N (p - d_scale d) < 2 ^ (bits - 1))%Z /\
   v = mk (d_mantissa d * 10 ^ Z.of_N (p - d_scale d))%Z).
Proof. exact dec_to_sql_accepts. Qed.

(** A column that is not one of the three decimals narrower than 256 bits refuses the decimal with a
    serialization error; without a hint the value is sent as it is. *)
Theorem C58_to_sql_other : forall d,
  dec_to_sql d None = Ok (VDecimal128 (d_scale d) (d_mantissa d)) /\
  forall t, (forall p, t <> TDecimal32 p /\ t <> TDecimal64 p /\ t <> TDecimal128 p) -> dec_to_sql d (Some t) = Err ESer.
Proof.
  intros d. split; [reflexivity|]. intros t N. destruct t; try reflexivity.
  - now destruct (proj1 (N s)).
  - now destruct (proj1 (proj2 (N s))).
  - now destruct (proj2 (proj2 (N s))).
Qed.
Print Assumptions C58_to_sql_other.

Example C58_nonvacuous :
  dec_to_sql {| d_mantissa := 12345; d_scale := 2 |} (Some (TDecimal64 4)) = Ok (VDecimal64 4 1234500) /\
  dec_from_sql (VDecimal64 4 1234500) = Ok {| d_mantissa := 1234500; d_scale := 4 |} /\
  dec_to_sql {| d_mantissa := 12345; d_scale := 2 |} (Some (TDecimal32 1)) = Err ESer /\
  dec_ok {| d_mantissa := 12345; d_scale := 2 |}.
Proof. vm_compute. repeat split; try reflexivity; discriminate. Qed.

Print Assumptions C37_words_roundtrip.
Print Assumptions C37_words_value.
Print Assumptions C37_reinterpret.
Print Assumptions C37_unsigned_order.
Print Assumptions C37_signed_order_iff.
Print Assumptions C37_hex_value.
Print Assumptions C38_decompose.
Print Assumptions C38_defined_iff.
Print Assumptions C36_date.
Print Assumptions C36_datetime.
Print Assumptions C36_datetime64.
Print Assumptions C36_datetime64_back.
Print Assumptions C36_datetime64_precision.
Print Assumptions C36_chrono_sql.
Print Assumptions C36_chrono_from_sql.
Print Assumptions C58_to_sql_same_number.
Print Assumptions C58_from_sql_same_number.
Print Assumptions C58_from_sql_accepts.
Print Assumptions C58_roundtrip.
Print Assumptions C58_to_sql_panics_iff.
Print Assumptions C58_to_sql_accepts.
