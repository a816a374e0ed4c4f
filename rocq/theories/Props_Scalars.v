(** Property C79: dates, times, addresses, UUIDs and 256-bit integers rendered as query text. *)
From Coq Require Import String Lia.
From Verif Require Import Base Types Text Numeral NumeralProofs LiteralSpec Calendar CalendarSpec CalendarProofs Literal LiteralProofs SqlLexProofs ScalarProofs NumericProofs Props_Literal.
Local Open Scope list_scope.
Local Open Scope N_scope.

(** A date is rendered as [makeDate] of the year, month and day of that date. *)
Theorem C79_date : forall E d t, d < 2 ^ 16 -> display E (VDate d) = Ok t -> date_expression t (Z.of_N d).
Proof. intros E d t B D. cbn [display] in D. assert (t = date_text d) as -> by congruence. apply date_text_spec. exact B. Qed.
Print Assumptions C79_date.

(** The text is the call of a function on one string literal, and that string is [s]. *)
Definition called_on (t name s rest : text) : Prop := exists q, t = name ++ txt "(" ++ q ++ rest ++ txt ")" /\ read_string q = Some (s, []).

(** A date-time (32-bit) is rendered as a string that names an instant.  It is the instant of the
    value if the offset of the zone at that instant is a whole number of minutes, and only then:
    otherwise it is off by the seconds RFC 3339 cannot express. *)
Theorem C79_datetime : forall E z secs t, secs < 2 ^ 32 -> (Z.abs (x_offset E z (Z.of_N secs)) < 86370)%Z ->
  display E (VDateTime z secs) = Ok t ->
  exists s, called_on t (txt "parseDateTimeBestEffort") s [] /\ (exists i, (Z.abs (i - Z.of_N secs) <= 30)%Z /\ instant_text s i 0) /\
    (instant_text s (Z.of_N secs) 0 <-> (x_offset E z (Z.of_N secs) mod 60 = 0)%Z).
Proof.
  intros E z secs t B O D. cbn [display] in D. set (off := x_offset E z (Z.of_N secs)) in *. set (s := rfc3339 off (Z.of_N secs) 0) in *.
  assert (t = txt "parseDateTimeBestEffort('" ++ escape_string s ++ txt "')") as -> by congruence. clear D.
  assert (I : instant_text s (Z.of_N secs + off - rounded off) 0).
  { apply rfc3339_spec; [exact O|lia| |reflexivity]. unfold LAST_SECOND. change (2 ^ 32) with 4294967296 in B. lia. }
  exists s. split; [|split].
  - exists ([39] ++ escape_string s ++ [39]). split; [rewrite <- !app_assoc; reflexivity|]. apply read_escaped, rfc3339_small.
  - exists (Z.of_N secs + off - rounded off)%Z. split; [|exact I]. pose proof (rounded_close off). lia.
  - rewrite <- rounded_exact. split; [intros X; destruct (instant_text_fun _ _ _ _ _ I X) as [Y _]; lia|].
    intros Y. replace (Z.of_N secs) with (Z.of_N secs + off - rounded off)%Z at 1 by lia. exact I.
Qed.
Print Assumptions C79_datetime.

(** A DateTime64 is rendered with its precision and a string that is an instant exactly to the
    last decimal - if the offset is whole minutes and the local date is no later than 9999. *)
Theorem C79_datetime64 : forall E z ticks p t, (Z.abs (x_offset E z (Z.of_N (ticks / 10 ^ p))) < 86370)%Z ->
  display E (VDateTime64 z ticks p) = Ok t ->
  exists s ps secs nanos, called_on t (txt "parseDateTime64BestEffort") s (txt ", " ++ ps) /\ numeral ps p /\
    nanos < 10 ^ 9 /\ p <= 9 /\ secs * 10 ^ 9 + nanos = ticks * 10 ^ (9 - p) /\
    (instant_text s (Z.of_N secs) nanos <->
       (x_offset E z (Z.of_N secs) mod 60 = 0 /\ Z.of_N secs + x_offset E z (Z.of_N secs) <= LAST_SECOND)%Z).
Proof.
  intros E z ticks p t O D. cbn [display] in D. destruct ((9 <? p) || (CHRONO_MAX_SECS <? ticks / 10 ^ p)) eqn:G; [discriminate D|].
  apply orb_false_iff in G as [P _]. apply N.ltb_ge in P. set (secs := ticks / 10 ^ p) in *. set (off := x_offset E z (Z.of_N secs)) in *.
  set (nanos := ticks mod 10 ^ p * 10 ^ (9 - p)) in *. set (s := rfc3339 off (Z.of_N secs) nanos) in *.
  assert (t = txt "parseDateTime64BestEffort('" ++ escape_string s ++ txt "', " ++ show_N p ++ txt ")") as -> by congruence. clear D.
  assert (NZ : 10 ^ p <> 0) by (apply N.pow_nonzero; discriminate). assert (NZ' : 10 ^ (9 - p) <> 0) by (apply N.pow_nonzero; discriminate).
  assert (PW : 10 ^ p * 10 ^ (9 - p) = 10 ^ 9) by (rewrite <- N.pow_add_r; f_equal; lia).
  assert (NN : nanos < 10 ^ 9). { rewrite <- PW. unfold nanos. apply N.mul_lt_mono_pos_r; [now apply N.neq_0_lt_0|]. now apply N.mod_lt. }
  exists s, (show_N p), secs, nanos. split.
  { exists ([39] ++ escape_string s ++ [39]). split; [rewrite <- !app_assoc; reflexivity|]. apply read_escaped, rfc3339_small. }
  split; [apply parse_digits_iff, parse_digits_show|]. split; [exact NN|]. split; [exact P|]. split.
  { pose proof (N.div_mod ticks (10 ^ p) NZ) as DM. unfold nanos, secs. rewrite <- PW. rewrite DM at 3. ring. }
  assert (I : (Z.of_N secs + off <= LAST_SECOND)%Z -> instant_text s (Z.of_N secs + off - rounded off) nanos).
  { intros L. apply rfc3339_spec; [exact O|lia|exact L|exact NN]. }
  change (x_offset E z (Z.of_N secs)) with off. rewrite <- rounded_exact. split.
  - intros X. destruct (Z.le_gt_cases (Z.of_N secs + off) LAST_SECOND) as [L|L].
    + destruct (instant_text_fun _ _ _ _ _ (I L) X) as [Y _]. split; [lia|exact L].
    + destruct (rfc3339_late off (Z.of_N secs) nanos L _ _ X).
  - intros [Y L]. replace (Z.of_N secs) with (Z.of_N secs + off - rounded off)%Z at 1 by lia. exact (I L).
Qed.
Print Assumptions C79_datetime64.

(** So a time before standard time was introduced does not keep its value in every zone: Liberia
    was 44 minutes and 30 seconds behind UTC until 1972. *)
Definition monrovia_fmt : ext_fmt := {|
  x_f32 := x_f32 demo_fmt; x_f64 := x_f64 demo_fmt; x_bf16 := x_bf16 demo_fmt; x_offset := fun _ t => if (t <? 63593070)%Z then (-2670)%Z else 0%Z;
  x_debug := x_debug demo_fmt |}.
Theorem C79_odd_offsets_refuted : ~ forall E z secs t s, secs < 2 ^ 32 -> (Z.abs (x_offset E z (Z.of_N secs)) < 86370)%Z ->
  display E (VDateTime z secs) = Ok t -> called_on t (txt "parseDateTimeBestEffort") s [] -> instant_text s (Z.of_N secs) 0.
Proof.
  intros H. destruct (C79_datetime monrovia_fmt UTC 1000 _ eq_refl eq_refl eq_refl) as (s & C & _ & I).
  specialize (H monrovia_fmt UTC 1000 _ s eq_refl eq_refl eq_refl C). apply I in H. discriminate.
Qed.
Print Assumptions C79_odd_offsets_refuted.
(** And a DateTime64 beyond the year 9999 is rendered, but as a text that is not that instant. *)
Theorem C79_far_future_refuted : ~ forall E z ticks p t s ps secs nanos,
  (x_offset E z (Z.of_N (ticks / 10 ^ p)) mod 60 = 0 /\ Z.abs (x_offset E z (Z.of_N (ticks / 10 ^ p))) < 86370)%Z ->
  display E (VDateTime64 z ticks p) = Ok t -> called_on t (txt "parseDateTime64BestEffort") s (txt ", " ++ ps) ->
  nanos < 10 ^ 9 -> secs * 10 ^ 9 + nanos = ticks * 10 ^ (9 - p) -> instant_text s (Z.of_N secs) nanos.
Proof.
  intros H. destruct (C79_datetime64 demo_fmt UTC 253402300800 0 _ eq_refl eq_refl) as (s & ps & secs & nanos & C & _ & B & _ & E & I).
  specialize (H demo_fmt UTC 253402300800 0 _ s ps secs nanos (conj eq_refl eq_refl) eq_refl C B E). apply I in H as [_ H].
  cbn [x_offset demo_fmt] in H. unfold LAST_SECOND in H. change (10 ^ (9 - 0)) with 1000000000 in E. change (10 ^ 9) with 1000000000 in *. lia.
Qed.
Print Assumptions C79_far_future_refuted.

(** A UUID is rendered as [toUUID] of its text form. *)
Theorem C79_uuid : forall E n t, n < 2 ^ 128 -> display E (VUuid n) = Ok t -> exists s, called_on t (txt "toUUID") s [] /\ uuid_text s n.
Proof.
  intros E n t B D. cbn [display] in D. assert (t = txt "toUUID('" ++ show_uuid n ++ txt "')") as -> by congruence. clear D.
  exists (show_uuid n). split; [|now apply uuid_spec]. exists ([39] ++ show_uuid n ++ [39]). split; [rewrite <- !app_assoc; reflexivity|]. apply read_plain, uuid_plain.
Qed.
Print Assumptions C79_uuid.

(** Addresses are rendered as string literals with the address's text form. *)
Theorem C79_ipv4 : forall E n t, n < 2 ^ 32 -> display E (VIpv4 n) = Ok t -> exists s, read_string t = Some (s, []) /\ dotted_quad s n.
Proof.
  intros E n t B D. cbn [display] in D. assert (t = [39] ++ show_ipv4 n ++ [39]) as -> by congruence. clear D.
  exists (show_ipv4 n). split; [apply read_plain, ipv4_plain|now apply ipv4_spec].
Qed.
Print Assumptions C79_ipv4.
Theorem C79_ipv6 : forall E o t, length o = 16%nat -> Forall (fun b => b < 256) o -> display E (VIpv6 o) = Ok t ->
  exists s, read_string t = Some (s, []) /\ address s o.
Proof.
  intros E o t L B D. cbn [display] in D. assert (t = [39] ++ show_ipv6 o ++ [39]) as -> by congruence. clear D.
  exists (show_ipv6 o). split; [now apply read_plain, ipv6_plain|now apply ipv6_spec].
Qed.
Print Assumptions C79_ipv6.

(** A 256-bit signed integer is rendered as a literal of the right type, whose number is that of
    the value if the value is not negative and 2^256 too large if it is. *)
Theorem C79_int256 : forall E be t, length be = 32%nat -> Forall (fun b => b < 256) be -> display E (VInt256 be) = Ok t ->
  exists z, read_literal t = Some (LCast (LNum z) (txt "Int256"), []) /\
    z = (if (signed_256 be <? 0)%Z then signed_256 be + 2 ^ 256 else signed_256 be)%Z.
Proof.
  intros E be t L B D. cbn [display] in D. assert (t = show_hex256 be ++ txt "::Int256") as -> by congruence. clear D.
  exists (Z.of_N (be_number be)). split; [now apply int256_literal|]. unfold signed_256.
  assert (U : (Z.of_N (be_number be) < 2 ^ 256)%Z). { pose proof (be_number_bound be B) as U. unfold lenN in U. rewrite L in U. change (256 ^ N.of_nat 32) with (2 ^ 256) in U. lia. }
  destruct (Z.ltb_spec (Z.of_N (be_number be)) (2 ^ 255)) as [X|X].
  - replace (Z.of_N (be_number be) <? 0)%Z with false by lia. reflexivity.
  - replace (Z.of_N (be_number be) - 2 ^ 256 <? 0)%Z with true by lia. lia.
Qed.
Print Assumptions C79_int256.
Theorem C79_negative_int256_refuted : ~ forall E be t, length be = 32%nat -> Forall (fun b => b < 256) be -> display E (VInt256 be) = Ok t ->
  read_literal t = Some (LCast (LNum (signed_256 be)) (txt "Int256"), []).
Proof.
  intros H. specialize (H demo_fmt (repeat 255 32) _ eq_refl ltac:(repeat constructor) eq_refl). vm_compute in H. discriminate H.
Qed.
Print Assumptions C79_negative_int256_refuted.

Example C79_nonvacuous :
  display demo_fmt (VDate 19782) = Ok (txt "makeDate(2024,02,29)") /\ date_expression (txt "makeDate(2024,02,29)") 19782 /\
  display demo_fmt (VDateTime UTC 1709164799) = Ok (txt "parseDateTimeBestEffort('2024-02-29T00:59:59+01:00')") /\
  instant_text (txt "2024-02-29T00:59:59+01:00") 1709164799 0 /\
  display demo_fmt (VDateTime64 UTC 1709164799250 3) = Ok (txt "parseDateTime64BestEffort('2024-02-29T00:59:59.250+01:00', 3)") /\
  display monrovia_fmt (VDateTime UTC 1000) = Ok (txt "parseDateTimeBestEffort('1969-12-31T23:32:10-00:45')") /\
  display demo_fmt (VUuid 87112206882939889569578396140470696820) = Ok (txt "toUUID('41893366-0a24-4a9b-bb1f-3c6f2e1a7b74')") /\
  display demo_fmt (VIpv4 3232235777) = Ok (txt "'192.168.1.1'") /\
  display demo_fmt (VIpv6 [32; 1; 13; 184; 0; 0; 0; 0; 0; 0; 0; 0; 0; 0; 0; 1]) = Ok (txt "'2001:db8::1'") /\
  display demo_fmt (VIpv6 [0; 0; 0; 0; 0; 0; 0; 0; 0; 0; 255; 255; 10; 0; 0; 1]) = Ok (txt "'::ffff:10.0.0.1'") /\
  display demo_fmt (VIpv6 (repeat 0 16)) = Ok (txt "'::'") /\
  address (txt "2001:db8::1") [32; 1; 13; 184; 0; 0; 0; 0; 0; 0; 0; 0; 0; 0; 0; 1].
Proof.
  assert (D : display demo_fmt (VDate 19782) = Ok (txt "makeDate(2024,02,29)")) by (vm_compute; reflexivity).
  assert (T : display demo_fmt (VDateTime UTC 1709164799) = Ok (txt "parseDateTimeBestEffort('2024-02-29T00:59:59+01:00')")) by (vm_compute; reflexivity).
  split; [exact D|]. split; [exact (C79_date _ 19782 _ eq_refl D)|]. split; [exact T|].
  split. { exact (rfc3339_spec 3600 1709164799 0 eq_refl ltac:(lia) ltac:(unfold LAST_SECOND; lia) eq_refl). }
  do 7 (split; [vm_compute; reflexivity|]). apply (ipv6_spec [32; 1; 13; 184; 0; 0; 0; 0; 0; 0; 0; 0; 0; 0; 0; 1]); [reflexivity|repeat constructor].
Qed.

(** The bounds in C14, C36, C79 and C80 are what they are meant to be: the last second chrono can
    represent is that of the year 262142, the last second of RFC 3339 that of 9999. *)
Theorem C36_last_second :
  day (Z.of_N CHRONO_MAX_SECS / 86400) (262142%Z, 12, 31) /\ day (Z.of_N CHRONO_MAX_SECS / 86400 + 1) (262143%Z, 1, 1) /\ (Z.of_N CHRONO_MAX_SECS mod 86400 = 86399)%Z /\
  day (LAST_SECOND / 86400) (9999%Z, 12, 31) /\ day (LAST_SECOND / 86400 + 1) (10000%Z, 1, 1) /\ (LAST_SECOND mod 86400 = 86399)%Z.
Proof.
  assert (K : forall n t, civil n = t -> day n t) by (intros n t; apply day_civil).
  split; [apply K; vm_compute; reflexivity|]. split; [apply K; vm_compute; reflexivity|]. split; [reflexivity|].
  split; [apply K; vm_compute; reflexivity|]. split; [apply K; vm_compute; reflexivity|reflexivity].
Qed.
Print Assumptions C36_last_second.
