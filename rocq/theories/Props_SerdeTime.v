(** Property C80: dates and times written and read through serde. *)
From Coq Require Import String Lia.
From Verif Require Import Base Types Text Numeral NumeralProofs Calendar CalendarSpec CalendarProofs ScalarProofs Numeric NumericProofs SerdeTime SerdeTimeProofs.
Local Open Scope list_scope.
Local Open Scope N_scope.

(** What is assumed of chrono's parsers: they read every RFC 3339 instant and every ISO date. *)
Definition reads_times (C : chrono_de) : Prop := forall s secs nanos, instant_text s secs nanos -> parse_3339 C s = Some (secs, nanos).
Definition reads_dates (C : chrono_de) : Prop := forall s n, date_text_iso s n -> parse_iso C s = Some n.
(** How far a zone is ahead of UTC: less than a day, and (since standard time) whole minutes. *)
Definition plain_offset (off : Z) : Prop := (Z.abs off < 86370 /\ off mod 60 = 0)%Z.

(** A date is written as year-month-day and comes back. *)
Theorem C80_date : forall C d, reads_dates C -> d < 2 ^ 16 -> date_text_iso (ser_date d) (Z.of_N d) /\ de_date C (ser_date d) = Ok d.
Proof.
  intros C d R B. pose proof (iso_date_spec d B) as I. split; [exact I|]. unfold de_date, ser_date. rewrite (R _ _ I). f_equal. exact (date_roundtrip d B).
Qed.
Print Assumptions C80_date.
(** A date outside 1970-01-01 to 2149-06-06 is not refused but becomes another one. *)
Theorem C80_date_range_refuted : ~ forall C s n d, reads_dates C -> date_text_iso s n -> de_date C s = Ok d -> Z.of_N d = n.
Proof.
  intros H. assert (D : date_text_iso (txt "1969-12-31") (-1)).
  { exists (txt "1969"), (txt "12"), (txt "31"), 1969, 12, 31. do 3 (split; [split; [reflexivity|apply parse_digits_iff; reflexivity]|]). split; [reflexivity|].
    apply (day_before 0 (1970%Z, 1, 1)); [constructor| |exact (nd_year 1969)]. exists 31. split; [apply mh_31; cbn; tauto|lia]. }
  specialize (H strict _ _ 65535 strict_reads_iso D eq_refl). discriminate.
Qed.
Print Assumptions C80_date_range_refuted.

(** Whatever text names an instant is read as that instant in UTC, in whole seconds, if it is
    in the range of the type, and refused otherwise. *)
Theorem C80_datetime_read : forall C s secs nanos, reads_times C -> instant_text s secs nanos ->
  ((0 <= secs < 2 ^ 32)%Z -> de_datetime C s = Ok (UTC, Z.to_N secs)) /\ (~ (0 <= secs < 2 ^ 32)%Z -> exists e, de_datetime C s = Err e).
Proof.
  intros C s secs nanos R I. unfold de_datetime, datetime_of_other, to_u32. rewrite (R _ _ _ I). cbn [i_secs]. split; intros B.
  - replace ((0 <=? secs) && (secs <? 2 ^ 32))%Z with true by lia. reflexivity.
  - replace ((0 <=? secs) && (secs <? 2 ^ 32))%Z with false by lia. cbn [rbind]. eauto.
Qed.
Print Assumptions C80_datetime_read.
(** A date-time written and read is the same instant, in UTC. *)
Theorem C80_datetime : forall C off z t, reads_times C -> t < 2 ^ 32 -> plain_offset (off z (Z.of_N t)) ->
  exists s, ser_datetime off z t = Ok s /\ instant_text s (Z.of_N t) 0 /\ de_datetime C s = Ok (UTC, t).
Proof.
  intros C off z t R B [O M]. eexists. split; [reflexivity|]. unfold instant_form, to_rfc3339. cbn [i_zone i_secs i_nanos].
  assert (I : instant_text (rfc3339_opts false (off z (Z.of_N t)) (Z.of_N t) 0) (Z.of_N t) 0).
  { replace (Z.of_N t) with (Z.of_N t + off z (Z.of_N t) - rounded (off z (Z.of_N t)))%Z at 3 by (rewrite rounded_minutes by exact M; lia).
    apply rfc3339_opts_spec; [exact O|lia| |reflexivity]. unfold LAST_SECOND. change (2 ^ 32) with 4294967296 in B. lia. }
  split; [exact I|]. destruct (C80_datetime_read C _ _ _ R I) as [K _]. rewrite K; [now rewrite N2Z.id|]. change (2 ^ 32) with 4294967296 in B. lia.
Qed.
Print Assumptions C80_datetime.

(** A text chrono does not accept is an error, never a value and never a panic. *)
Theorem C80_malformed : forall C s,
  (parse_iso C s = None -> de_date C s = Err EOther) /\
  (parse_3339 C s = None -> de_datetime C s = Err EOther /\ (forall p, de_datetime64 C p s = Err EOther) /\ de_dyn_datetime64 C s = Err EOther).
Proof.
  intros C s. split; intros H; [unfold de_date; rewrite H; reflexivity|]. unfold de_dyn_datetime64, de_datetime64, de_datetime. rewrite H. repeat split.
Qed.
Print Assumptions C80_malformed.
Example C80_malformed_nonvacuous : parse_iso strict (txt "tomorrow") = None /\ parse_3339 strict (txt "yesterday") = None.
Proof. split; reflexivity. Qed.

(** A DateTime64 of [p] decimals read from a text that names an instant: truncated to [p] decimals. *)
Theorem C80_datetime64_read : forall C p s secs nanos, reads_times C -> instant_text s secs nanos -> p <= 9 -> (0 <= secs)%Z ->
  Z.to_N secs * 10 ^ p + nanos / 10 ^ (9 - p) < 2 ^ 64 -> de_datetime64 C p s = Ok (UTC, Z.to_N secs * 10 ^ p + nanos / 10 ^ (9 - p)).
Proof.
  intros C p s secs nanos R I P S B. unfold de_datetime64, datetime64_of_chrono. rewrite (R _ _ _ I). cbn [i_secs i_nanos i_zone].
  replace (secs <? 0)%Z with false by lia. rewrite (N.mod_small p (2 ^ 32)) by lia. replace (9 <? p) with false by lia. cbv zeta.
  revert B. generalize (Z.to_N secs * 10 ^ p) (nanos / 10 ^ (9 - p)). intros a b B.
  replace (2 ^ 64 <=? a) with false by lia. replace (2 ^ 64 <=? a + b) with false by lia. reflexivity.
Qed.
Print Assumptions C80_datetime64_read.
Lemma ser64_ok off p z v : p <= 9 -> v / 10 ^ p <= CHRONO_MAX_SECS -> plain_offset (off z (Z.of_N (v / 10 ^ p))) ->
  (Z.of_N (v / 10 ^ p) + off z (Z.of_N (v / 10 ^ p)) <= LAST_SECOND)%Z ->
  exists s, ser_datetime64 off p z v = Ok s /\ instant_text s (Z.of_N (v / 10 ^ p)) (v mod 10 ^ p * 10 ^ (9 - p)) /\ v mod 10 ^ p * 10 ^ (9 - p) < 10 ^ 9.
Proof.
  intros P R [O M] L. unfold ser_datetime64. rewrite datetime64_to_chrono_ok by assumption. cbn [rbind]. eexists. split; [reflexivity|].
  unfold instant_form, to_rfc3339. cbn [i_zone i_secs i_nanos].
  assert (NN : v mod 10 ^ p * 10 ^ (9 - p) < 10 ^ 9).
  { replace (10 ^ 9) with (10 ^ p * 10 ^ (9 - p)) by (rewrite <- N.pow_add_r; replace (p + (9 - p)) with 9 by lia; reflexivity).
    apply N.mul_lt_mono_pos_r; [apply N.neq_0_lt_0, N.pow_nonzero; discriminate|]. apply N.mod_lt, N.pow_nonzero. discriminate. }
  split; [|exact NN]. set (secs := v / 10 ^ p) in *.
  replace (Z.of_N secs) with (Z.of_N secs + off z (Z.of_N secs) - rounded (off z (Z.of_N secs)))%Z at 3 by (rewrite rounded_minutes by exact M; lia).
  apply rfc3339_opts_spec; [exact O|lia|exact L|exact NN].
Qed.
(** A DateTime64<p> up to the year 9999 written and read is the same instant, in UTC. *)
Theorem C80_datetime64 : forall C off p z v, reads_times C -> p <= 9 -> v < 2 ^ 64 -> v / 10 ^ p <= CHRONO_MAX_SECS ->
  plain_offset (off z (Z.of_N (v / 10 ^ p))) -> (Z.of_N (v / 10 ^ p) + off z (Z.of_N (v / 10 ^ p)) <= LAST_SECOND)%Z ->
  exists s, ser_datetime64 off p z v = Ok s /\ de_datetime64 C p s = Ok (UTC, v).
Proof.
  intros C off p z v R P V CM O L. destruct (ser64_ok off p z v P CM O L) as (s & E & I & _). exists s. split; [exact E|].
  assert (NZ : 10 ^ p <> 0) by (apply N.pow_nonzero; discriminate). assert (NZ' : 10 ^ (9 - p) <> 0) by (apply N.pow_nonzero; discriminate).
  assert (T : Z.to_N (Z.of_N (v / 10 ^ p)) * 10 ^ p + v mod 10 ^ p * 10 ^ (9 - p) / 10 ^ (9 - p) = v).
  { rewrite N2Z.id, N.div_mul by exact NZ'. pose proof (N.div_mod v (10 ^ p) NZ) as D. rewrite N.mul_comm. symmetry. exact D. }
  rewrite (C80_datetime64_read C p s _ _ R I P); [now rewrite T|apply N2Z.is_nonneg|rewrite T; exact V].
Qed.
Print Assumptions C80_datetime64.

(** With dynamic precision the value comes back with six decimals: the same instant if it had no
    more than six, and truncated if it had more. *)
Theorem C80_dynamic : forall C off p z v, reads_times C -> p <= 9 -> v < 2 ^ 64 -> v / 10 ^ p <= CHRONO_MAX_SECS ->
  plain_offset (off z (Z.of_N (v / 10 ^ p))) -> (Z.of_N (v / 10 ^ p) + off z (Z.of_N (v / 10 ^ p)) <= LAST_SECOND)%Z ->
  exists s, ser_datetime64 off p z v = Ok s /\ de_dyn_datetime64 C s = Ok (UTC, v * 10 ^ 6 / 10 ^ p, 6).
Proof.
  intros C off p z v R P V CM O L. destruct (ser64_ok off p z v P CM O L) as (s & E & I & NN). exists s. split; [exact E|].
  assert (NZ : 10 ^ p <> 0) by (apply N.pow_nonzero; discriminate).
  assert (T : v / 10 ^ p * 10 ^ 6 + v mod 10 ^ p * 10 ^ (9 - p) / 10 ^ 3 = v * 10 ^ 6 / 10 ^ p).
  { pose proof (N.div_mod v (10 ^ p) NZ) as D. rewrite D at 3. rewrite N.mul_add_distr_r.
    rewrite <- N.mul_assoc, (N.mul_comm (10 ^ p)), N.div_add_l by exact NZ. f_equal. set (r := v mod 10 ^ p).
    assert (PW : 10 ^ p * 10 ^ (9 - p) = 10 ^ 6 * 10 ^ 3) by (rewrite <- N.pow_add_r; replace (p + (9 - p)) with 9 by lia; reflexivity).
    assert (NZ' : 10 ^ (9 - p) <> 0) by (apply N.pow_nonzero; discriminate).
    rewrite <- (N.div_mul_cancel_r (r * 10 ^ 6) (10 ^ p) (10 ^ (9 - p)) NZ NZ'), PW.
    rewrite <- (N.div_mul_cancel_r (r * 10 ^ (9 - p)) (10 ^ 3) (10 ^ 6)) by discriminate. f_equal; ring. }
  unfold de_dyn_datetime64. rewrite (C80_datetime64_read C 6 s _ _ R I); [|lia|apply N2Z.is_nonneg|].
  - cbn [rbind]. rewrite N2Z.id. change (9 - 6) with 3. now rewrite T.
  - rewrite N2Z.id. assert (SB : v / 10 ^ p <= Z.to_N LAST_SECOND + 86370) by (destruct O as [O _]; revert L O; generalize (v / 10 ^ p); unfold LAST_SECOND; intros; lia). change (Z.to_N LAST_SECOND) with 253402300799 in SB.
    assert (NB : v mod 10 ^ p * 10 ^ (9 - p) / 10 ^ (9 - 6) < 10 ^ 6) by (apply N.div_lt_upper_bound; [discriminate|change (10 ^ (9 - 6) * 10 ^ 6) with (10 ^ 9); exact NN]).
    revert SB NB. generalize (v / 10 ^ p) (v mod 10 ^ p * 10 ^ (9 - p) / 10 ^ (9 - 6)). intros a b. change (10 ^ 6) with 1000000. change (2 ^ 64) with 18446744073709551616. lia.
Qed.
Print Assumptions C80_dynamic.
Theorem C80_precision_refuted : ~ forall C off p z v s, reads_times C -> p <= 9 -> v < 2 ^ 64 -> (forall z t, plain_offset (off z t)) ->
  ser_datetime64 off p z v = Ok s -> de_dyn_datetime64 C s = Ok (UTC, v, p).
Proof.
  intros H. specialize (H strict (fun _ _ => 0%Z) 3 UTC 5 _ strict_reads ltac:(lia) eq_refl ltac:(split; reflexivity) eq_refl). vm_compute in H. discriminate H.
Qed.
Print Assumptions C80_precision_refuted.
(** The zone is lost: a value that is not in UTC does not come back equal. *)
Theorem C80_zone_refuted : forall C off z t, reads_times C -> t < 2 ^ 32 -> plain_offset (off z (Z.of_N t)) -> z <> UTC ->
  exists s v, ser_datetime off z t = Ok s /\ de_datetime C s = Ok v /\ v <> (z, t).
Proof.
  intros C off z t R B O Z. destruct (C80_datetime C off z t R B O) as (s & E & _ & D). exists s, (UTC, t). split; [exact E|]. split; [exact D|]. congruence.
Qed.
Print Assumptions C80_zone_refuted.

Example C80_nonvacuous : reads_times strict /\ reads_dates strict /\
  ser_date 19782 = txt "2024-02-29" /\ de_date strict (txt "2024-02-29") = Ok 19782 /\
  ser_datetime (fun _ _ => 3600%Z) 7 1709164799 = Ok (txt "2024-02-29T00:59:59+01:00") /\
  ser_datetime (fun _ _ => 0%Z) UTC 1709164799 = Ok (txt "2024-02-28T23:59:59+00:00") /\
  de_datetime strict (txt "2024-02-29T00:59:59.75+01:00") = Ok (UTC, 1709164799) /\
  ser_datetime64 (fun _ _ => (-19800)%Z) 4 UTC 17091647991234 = Ok (txt "2024-02-28T18:29:59.123400-05:30") /\
  de_datetime64 strict 4 (txt "2024-02-28T18:29:59.123400-05:30") = Ok (UTC, 17091647991234) /\
  de_dyn_datetime64 strict (txt "2024-02-28T18:29:59.123400-05:30") = Ok (UTC, 1709164799123400, 6).
Proof. split; [exact strict_reads|]. split; [exact strict_reads_iso|]. repeat split. Qed.
