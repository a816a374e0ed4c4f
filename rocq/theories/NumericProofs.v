(** Proofs about 256-bit integers, fixed point, calendar conversions, decimals. *)
From Verif Require Import Base Types LiteralSpec Numeric NumericSpec.

(* ---------------- 256 bits ---------------- *)

Lemma fold_be l : forall a, fold_left (fun a b => a * 256 + b) l a = a * 256 ^ lenN l + fold_left (fun a b => a * 256 + b) l 0.
Proof.
  induction l as [|b l IH]; intros a; cbn [fold_left].
  - unfold lenN. cbn [length]. change (N.of_nat 0) with 0. rewrite N.pow_0_r. lia.
  - rewrite IH, (IH (0 * 256 + b)). unfold lenN. cbn [length]. rewrite Nat2N.inj_succ, N.pow_succ_r'. lia.
Qed.
Lemma be_number_app a b : be_number (a ++ b) = be_number a * 256 ^ lenN b + be_number b.
Proof. unfold be_number. rewrite fold_left_app. apply fold_be. Qed.
Lemma be_number_rev l : be_number (rev l) = le_val l.
Proof.
  induction l as [|b l IH]; [reflexivity|]. cbn [rev le_val]. rewrite be_number_app, IH.
  unfold lenN, be_number. cbn [length fold_left]. change (N.of_nat 1) with 1. rewrite N.pow_1_r. lia.
Qed.
Lemma be_number_le l : be_number l = le_val (rev l).
Proof. rewrite <- be_number_rev. now rewrite rev_involutive. Qed.
Lemma from_be_number l : from_be_bytes l = be_number l.
Proof. reflexivity. Qed.
Lemma bytes_ok_of l : Forall (fun b => b < 256) l -> bytes_ok l.
Proof. intros H. exact H. Qed.

Lemma be_roundtrip l : Forall (fun b => b < 256) l -> to_be_bytes (length l) (from_be_bytes l) = l.
Proof.
  intros H. unfold to_be_bytes. rewrite from_be_number, be_number_le, <- (rev_length l).
  rewrite le_bytes_val; [apply rev_involutive|]. apply Forall_rev, H.
Qed.
Lemma from_to_be n x : x < 256 ^ N.of_nat n -> from_be_bytes (to_be_bytes n x) = x.
Proof. intros H. unfold to_be_bytes. rewrite from_be_number, be_number_rev. now apply le_val_bytes. Qed.
Lemma be_number_bound l : Forall (fun b => b < 256) l -> be_number l < 256 ^ lenN l.
Proof.
  intros H. rewrite be_number_le. replace (lenN l) with (lenN (rev l)) by (unfold lenN; now rewrite rev_length).
  apply le_val_bound, Forall_rev, H.
Qed.

Lemma words_of_bytes be : is_256 be -> of_words (to_words be) = be.
Proof.
  intros [L B]. unfold of_words, to_words. cbn [fst snd].
  pose proof (Forall_forall (fun b => b < 256) be) as F.
  assert (B1 : Forall (fun b => b < 256) (firstn 16 be)) by (rewrite <- (firstn_skipn 16 be) in B; now apply Forall_app in B).
  assert (B2 : Forall (fun b => b < 256) (skipn 16 be)) by (rewrite <- (firstn_skipn 16 be) in B; now apply Forall_app in B).
  pose proof (be_roundtrip _ B1) as R1. pose proof (be_roundtrip _ B2) as R2.
  rewrite firstn_length, L in R1. rewrite skipn_length, L in R2. cbn [Nat.min Nat.sub] in R1, R2. rewrite R1, R2. apply firstn_skipn.
Qed.
Lemma bytes_of_words a b : a < 2 ^ 128 -> b < 2 ^ 128 -> to_words (of_words (a, b)) = (a, b).
Proof.
  intros A B. unfold to_words, of_words. cbn [fst snd].
  assert (L : length (to_be_bytes 16 a) = 16%nat) by (unfold to_be_bytes; now rewrite rev_length, le_bytes_length).
  rewrite firstn_app, skipn_app, L, Nat.sub_diag, firstn_all2, skipn_all2 by lia. cbn [firstn skipn app].
  rewrite app_nil_r, !from_to_be; [reflexivity|exact B|exact A].
Qed.
Lemma of_words_256 a b : is_256 (of_words (a, b)).
Proof.
  split.
  - unfold of_words, to_be_bytes. cbn [fst snd]. now rewrite app_length, !rev_length, !le_bytes_length.
  - apply Forall_app. split; apply Forall_rev, le_bytes_ok.
Qed.
Lemma words_value be : is_256 be -> be_number be = fst (to_words be) * 2 ^ 128 + snd (to_words be).
Proof.
  intros [L B]. unfold to_words. cbn [fst snd]. rewrite !from_be_number, <- (firstn_skipn 16 be) at 1. rewrite be_number_app.
  unfold lenN. rewrite skipn_length, L. reflexivity.
Qed.

Lemma number_256_bound be : is_256 be -> be_number be < 2 ^ 256.
Proof. intros [L B]. apply be_number_bound in B. unfold lenN in B. rewrite L in B. exact B. Qed.

Lemma number_256_inj a b : is_256 a -> is_256 b -> be_number a = be_number b -> a = b.
Proof.
  intros [La Ba] [Lb Bb] E. rewrite <- (be_roundtrip a Ba), <- (be_roundtrip b Bb), La, Lb, !from_be_number. now rewrite E.
Qed.

Lemma cmp_bytes_spec a : forall b, length a = length b -> Forall (fun x => x < 256) a -> Forall (fun x => x < 256) b ->
  cmp_bytes a b = (be_number a ?= be_number b).
Proof.
  induction a as [|x a IH]; intros [|y b] L A B; try discriminate; [reflexivity|].
  cbn [cmp_bytes]. injection L as L.
  pose proof (Forall_inv_tail A) as A'. pose proof (Forall_inv_tail B) as B'.
  change (x :: a) with ([x] ++ a). change (y :: b) with ([y] ++ b). rewrite !be_number_app.
  replace (lenN b) with (lenN a) by (unfold lenN; now rewrite L).
  change (be_number [x]) with (0 * 256 + x). change (be_number [y]) with (0 * 256 + y).
  pose proof (be_number_bound a A'). pose proof (be_number_bound b B'). replace (lenN b) with (lenN a) in * by (unfold lenN; now rewrite L).
  set (P := 256 ^ lenN a) in *. clearbody P.
  destruct (N.compare_spec x y) as [->|C|C].
  - rewrite (IH b L A' B'). symmetry.
    destruct (N.compare_spec (be_number a) (be_number b)); [apply N.compare_eq_iff|apply N.compare_lt_iff|apply N.compare_gt_iff]; nia.
  - symmetry. apply N.compare_lt_iff. nia.
  - symmetry. apply N.compare_gt_iff. nia.
Qed.

(* ---------------- fixed point ---------------- *)

Lemma pow10_ok bits p m : pow10 bits p = Ok m -> (0 < m)%Z /\ m = (10 ^ Z.of_N (p mod 2 ^ 32))%Z.
Proof.
  unfold pow10. destruct (_ <? _)%Z; [|discriminate]. intros H. injection H as <-.
  split; [apply Z.pow_pos_nonneg; lia|reflexivity].
Qed.
Lemma pow10_defined bits p k : p < 2 ^ 32 -> p <= k -> (10 ^ Z.of_N k < 2 ^ (bits - 1))%Z -> pow10 bits p = Ok (10 ^ Z.of_N p)%Z.
Proof.
  intros P K B. unfold pow10. rewrite N.mod_small by exact P.
  assert (10 ^ Z.of_N p <= 10 ^ Z.of_N k)%Z by (apply Z.pow_le_mono_r; lia).
  destruct (Z.ltb_spec (10 ^ Z.of_N p) (2 ^ (bits - 1))); [reflexivity|lia].
Qed.
Lemma pow10_panics bits p k : p < 2 ^ 32 -> k <= p -> (2 ^ (bits - 1) <= 10 ^ Z.of_N k)%Z -> pow10 bits p = Panic.
Proof.
  intros P K B. unfold pow10. rewrite N.mod_small by exact P.
  assert (10 ^ Z.of_N k <= 10 ^ Z.of_N p)%Z by (apply Z.pow_le_mono_r; lia).
  destruct (Z.ltb_spec (10 ^ Z.of_N p) (2 ^ (bits - 1))); [lia|reflexivity].
Qed.

Lemma fixed_decompose bits p x i f m :
  fp_integer bits p x = Ok i -> fp_fraction bits p x = Ok f -> fp_modulus bits p = Ok m ->
  (x = i * m + f /\ Z.abs f < m /\ 0 <= f * x /\ 0 <= i * x)%Z.
Proof.
  unfold fp_integer, fp_fraction, fp_modulus. intros I F M. rewrite M in I, F. cbn [rbind] in I, F.
  injection I as <-. injection F as <-. apply pow10_ok in M as [M _].
  pose proof (Z.quot_rem' x m) as Q. split; [lia|].
  pose proof (Z.rem_bound_abs x m ltac:(lia)). split; [lia|]. split.
  - pose proof (Z.rem_sign_mul x m ltac:(lia)). lia.
  - destruct (Z.le_gt_cases 0 x).
    + pose proof (Z.quot_pos x m ltac:(lia) M). nia.
    + assert (Z.quot x m <= 0)%Z; [|nia].
      rewrite <- (Z.opp_involutive x), Z.quot_opp_l by lia.
      pose proof (Z.quot_pos (- x) m ltac:(lia) M). lia.
Qed.

(* ---------------- calendar ---------------- *)

Lemma date_roundtrip d : d < 65536 -> date_of_chrono (date_to_chrono d) = d.
Proof. intros H. unfold date_of_chrono, date_to_chrono. rewrite Z.mod_small by lia. lia. Qed.
Lemma date_back_iff z : date_to_chrono (date_of_chrono z) = z <-> (0 <= z < 65536)%Z.
Proof.
  unfold date_of_chrono, date_to_chrono. pose proof (Z.mod_pos_bound z 65536 ltac:(lia)). split.
  - intros E. lia.
  - intros B. rewrite Z.mod_small by lia. lia.
Qed.

Lemma datetime_roundtrip z t : t < 2 ^ 32 -> (i <- datetime_to_chrono z t ;; datetime_of_chrono i) = Ok (z, t).
Proof.
  intros H. cbn [datetime_to_chrono rbind]. unfold datetime_of_chrono, to_u32. cbn [i_secs i_zone].
  replace ((0 <=? Z.of_N t) && (Z.of_N t <? 2 ^ 32))%Z with true by lia. cbn [rbind]. now rewrite N2Z.id.
Qed.

Lemma pow_split p : p <= 9 -> 10 ^ p * 10 ^ (9 - p) = 10 ^ 9.
Proof. intros H. rewrite <- N.pow_add_r. f_equal. lia. Qed.
Lemma pow_pos p : 0 < 10 ^ p.
Proof. apply N.neq_0_lt_0, N.pow_nonzero. discriminate. Qed.

Lemma datetime64_to_chrono_ok p z v : p <= 9 -> v / 10 ^ p <= CHRONO_MAX_SECS ->
  datetime64_to_chrono p z v = Ok {| i_zone := z; i_secs := Z.of_N (v / 10 ^ p); i_nanos := v mod 10 ^ p * 10 ^ (9 - p) |}.
Proof.
  intros P R. unfold datetime64_to_chrono. rewrite (N.mod_small p (2 ^ 32)) by lia.
  replace (9 <? p) with false by lia.
  assert (U : v mod 10 ^ p * 10 ^ (9 - p) < 10 ^ 9).
  { rewrite <- (pow_split p P). apply N.mul_lt_mono_pos_r; [apply pow_pos|]. apply N.mod_lt, N.pow_nonzero. discriminate. }
  assert (C : CHRONO_MAX_SECS < 2 ^ 63) by reflexivity.
  change (10 ^ 9) with 1000000000 in U.
  generalize dependent (v mod 10 ^ p * 10 ^ (9 - p)). generalize dependent (v / 10 ^ p). intros s R u U.
  replace (2 ^ 63 <=? s) with false by lia. replace (2 ^ 32 <=? u) with false by lia.
  replace (CHRONO_MAX_SECS <? s) with false by lia. reflexivity.
Qed.

Lemma datetime64_roundtrip p z v : p <= 9 -> v < 2 ^ 64 -> v / 10 ^ p <= CHRONO_MAX_SECS ->
  (i <- datetime64_to_chrono p z v ;; datetime64_of_chrono p i) = Ok (z, v).
Proof.
  intros P V R. rewrite datetime64_to_chrono_ok by assumption. cbn [rbind]. unfold datetime64_of_chrono. cbn [i_secs i_nanos i_zone].
  rewrite (N.mod_small p (2 ^ 32)) by lia. replace (9 <? p) with false by lia.
  replace (Z.of_N (v / 10 ^ p) <? 0)%Z with false by (generalize (v / 10 ^ p); intros; lia). rewrite N2Z.id.
  rewrite N.div_mul by (apply N.pow_nonzero; discriminate).
  pose proof (N.div_mod v (10 ^ p) (N.pow_nonzero 10 p ltac:(discriminate))) as D. rewrite (N.mul_comm (10 ^ p)) in D.
  generalize dependent (v / 10 ^ p * 10 ^ p). generalize dependent (v mod 10 ^ p). intros m w D.
  replace (2 ^ 64 <=? w) with false by lia. rewrite <- D. replace (2 ^ 64 <=? v) with false by lia. reflexivity.
Qed.

(** The converse: the instant comes back truncated to the precision. *)
Lemma datetime64_back p i z v : p <= 9 -> (0 <= i_secs i)%Z -> i_nanos i < 10 ^ 9 -> (i_secs i <= Z.of_N CHRONO_MAX_SECS)%Z ->
  datetime64_of_chrono p i = Ok (z, v) ->
  z = i_zone i /\
  datetime64_to_chrono p z v = Ok {| i_zone := i_zone i; i_secs := i_secs i; i_nanos := i_nanos i - i_nanos i mod 10 ^ (9 - p) |}.
Proof.
  intros P S NB CM H. unfold datetime64_of_chrono in H. rewrite (N.mod_small p (2 ^ 32)) in H by lia.
  replace (9 <? p) with false in H by lia. replace (i_secs i <? 0)%Z with false in H by lia.
  destruct (2 ^ 64 <=? Z.to_N (i_secs i) * 10 ^ p) eqn:O1; [discriminate|].
  destruct (2 ^ 64 <=? _) eqn:O2 in H; [discriminate|]. injection H as <- <-. split; [reflexivity|].
  set (n := i_nanos i) in *. set (Q := 10 ^ (9 - p)) in *. set (P10 := 10 ^ p) in *.
  assert (HP : P10 <> 0) by (apply N.pow_nonzero; discriminate). assert (HQ : Q <> 0) by (apply N.pow_nonzero; discriminate).
  assert (PQ : P10 * Q = 10 ^ 9) by (apply pow_split, P).
  assert (F : n / Q < P10) by (apply N.div_lt_upper_bound; [exact HQ|]; rewrite N.mul_comm, PQ; exact NB).
  assert (DIV : (Z.to_N (i_secs i) * P10 + n / Q) / P10 = Z.to_N (i_secs i)).
  { rewrite N.add_comm, N.div_add, N.div_small by assumption. lia. }
  assert (MOD : (Z.to_N (i_secs i) * P10 + n / Q) mod P10 = n / Q).
  { rewrite N.add_comm, N.mod_add, N.mod_small by assumption. reflexivity. }
  rewrite datetime64_to_chrono_ok; fold P10 Q; [|exact P|rewrite DIV; lia].
  rewrite DIV, MOD. f_equal. f_equal; [lia|].
  pose proof (N.div_mod n Q HQ). rewrite N.mul_comm. lia.
Qed.

Lemma chrono_sql_roundtrip z' p' i v : (0 <= i_secs i <= Z.of_N CHRONO_MAX_SECS)%Z -> i_nanos i < 10 ^ 9 ->
  chrono_to_sql i = Ok v ->
  chrono_from_sql (TDateTime64 p' z') v = Ok {| i_zone := i_zone i; i_secs := i_secs i; i_nanos := i_nanos i - i_nanos i mod 1000 |}.
Proof.
  intros S NB H. unfold chrono_to_sql in H. destruct (_ <? 0)%Z; [discriminate|]. injection H as <-. cbn [chrono_from_sql].
  change (10 ^ 9) with 1000000000 in NB.
  assert (X : Z.to_N (i_secs i * 1000000 + Z.of_N (i_nanos i / 1000)) = Z.to_N (i_secs i) * 1000000 + i_nanos i / 1000).
  { generalize (i_nanos i / 1000). intros k. lia. }
  rewrite X. assert (F : i_nanos i / 1000 < 1000000) by (apply N.div_lt_upper_bound; lia).
  assert (DIV : (Z.to_N (i_secs i) * 1000000 + i_nanos i / 1000) / 10 ^ 6 = Z.to_N (i_secs i)).
  { change (10 ^ 6) with 1000000. rewrite N.add_comm, N.div_add, N.div_small by (assumption || discriminate). lia. }
  assert (MOD : (Z.to_N (i_secs i) * 1000000 + i_nanos i / 1000) mod 10 ^ 6 = i_nanos i / 1000).
  { change (10 ^ 6) with 1000000. rewrite N.add_comm, N.mod_add, N.mod_small by (assumption || discriminate). reflexivity. }
  rewrite datetime64_to_chrono_ok; [|lia|rewrite DIV; lia]. rewrite DIV, MOD. f_equal. f_equal; [lia|].
  change (10 ^ (9 - 6)) with 1000. pose proof (N.div_mod (i_nanos i) 1000 ltac:(discriminate)). lia.
Qed.

(* ---------------- decimals ---------------- *)

Lemma mantissa_to_scale_ok m s p r : mantissa_to_scale m s p = Ok r -> s <= p < 2 ^ 32 -> r = (m * 10 ^ Z.of_N (p - s))%Z.
Proof.
  unfold mantissa_to_scale. destruct (N.ltb_spec p s); [discriminate|]. destruct (N.eqb_spec p s) as [->|].
  - intros H' B. injection H' as <-. rewrite N.sub_diag. change (Z.of_N 0) with 0%Z. rewrite Z.pow_0_r. lia.
  - intros H' B. destruct (pow10 128 (p - s)) as [f| |] eqn:F; cbn [rbind] in H'; try discriminate.
    apply pow10_ok in F as [_ F]. rewrite N.mod_small in F by lia. destruct (_ && _); [|discriminate]. injection H' as <-. now subst f.
Qed.

Lemma dec_to_sql_same d hint v : d_scale d <= 28 -> dec_to_sql d hint = Ok v ->
  (forall p, hint = Some (TDecimal32 p) \/ hint = Some (TDecimal64 p) \/ hint = Some (TDecimal128 p) -> p < 2 ^ 32) ->
  exists x p, decimal_of v = Some (x, p) /\ same_number x p (d_mantissa d) (d_scale d).
Proof.
  intros SC H PB.
  assert (K : forall p r, p < 2 ^ 32 -> d_scale d <= p -> mantissa_to_scale (d_mantissa d) (d_scale d) p = Ok r ->
    same_number r p (d_mantissa d) (d_scale d)).
  { intros p r B S M. apply mantissa_to_scale_ok in M; [|lia]. subst r. unfold same_number.
    rewrite <- Z.mul_assoc, <- Z.pow_add_r by lia. do 2 f_equal. lia. }
  destruct hint as [t|].
  2: { cbn [dec_to_sql] in H. injection H as <-. cbn [decimal_of]. eexists _, _. split; [reflexivity|]. unfold same_number. reflexivity. }
  destruct t; cbn [dec_to_sql] in H; try discriminate; (assert (B : s < 2 ^ 32) by (apply PB; auto));
    rewrite (N.mod_small s (2 ^ 32)) in H by exact B;
    (destruct (N.leb_spec (d_scale d) s); [|discriminate]);
    (destruct (mantissa_to_scale _ _ _) as [m| |] eqn:M; cbn [rbind] in H; try discriminate).
  - unfold to_signed in H. destruct (_ && _); cbn [rbind] in H; [|discriminate]. injection H as <-. eexists _, _. split; [reflexivity|]. auto.
  - unfold to_signed in H. destruct (_ && _); cbn [rbind] in H; [|discriminate]. injection H as <-. eexists _, _. split; [reflexivity|]. auto.
  - injection H as <-. eexists _, _. split; [reflexivity|]. auto.
Qed.

Lemma dec_from_sql_same v d x p : decimal_of v = Some (x, p) -> p < 2 ^ 32 -> dec_from_sql v = Ok d ->
  d_mantissa d = x /\ d_scale d = p /\ dec_ok d.
Proof.
  assert (T : forall m s d, dec_try m s = Ok d -> d_mantissa d = m /\ d_scale d = s /\ dec_ok d).
  { intros m s d' H. unfold dec_try in H. destruct (_ && _) eqn:C; [|discriminate]. injection H as <-.
    unfold dec_ok. cbn [d_mantissa d_scale]. lia. }
  intros D P H. destruct v; cbn [decimal_of] in D; try discriminate; injection D as <- <-; cbn [dec_from_sql] in H.
  - now apply T.
  - destruct w; try now apply T. destruct (_ <=? _); [discriminate|now apply T].
  - rewrite N.mod_small in H by exact P. now apply T.
  - rewrite N.mod_small in H by exact P. now apply T.
  - rewrite N.mod_small in H by exact P. now apply T.
Qed.

Lemma chrono_from_sql_exact t : (exists p z, t = TDateTime64 p z) \/ (exists z, t = TDateTime z) ->
  (forall z x p, p <= 9 -> x / 10 ^ p <= CHRONO_MAX_SECS -> exists secs nanos,
     chrono_from_sql t (VDateTime64 z x p) = Ok {| i_zone := z; i_secs := Z.of_N secs; i_nanos := nanos |} /\
     nanos < 10 ^ 9 /\ secs * 10 ^ 9 + nanos = x * 10 ^ (9 - p)) /\
  (forall z x, x < 2 ^ 32 -> chrono_from_sql t (VDateTime z x) = Ok {| i_zone := z; i_secs := Z.of_N x; i_nanos := 0 |}).
Proof.
  intros T. split; [|intros z x _; destruct T as [(? & ? & ->)|(? & ->)]; reflexivity].
  intros z x p P R. exists (x / 10 ^ p), (x mod 10 ^ p * 10 ^ (9 - p)).
  assert (E : chrono_from_sql t (VDateTime64 z x p) = datetime64_to_chrono p z x) by (destruct T as [(? & ? & ->)|(? & ->)]; reflexivity).
  rewrite E, datetime64_to_chrono_ok by assumption. split; [reflexivity|].
  pose proof (pow_split p P) as S. pose proof (N.div_mod x (10 ^ p) (N.pow_nonzero 10 p ltac:(discriminate))) as D.
  pose proof (N.mod_lt x (10 ^ p) (N.pow_nonzero 10 p ltac:(discriminate))) as M.
  change (10 ^ 9) with 1000000000 in *.
  assert (Q : 0 < 10 ^ (9 - p)) by (apply N.neq_0_lt_0, N.pow_nonzero; discriminate).
  split.
  - rewrite <- S. apply N.mul_lt_mono_pos_r; assumption.
  - rewrite D at 3. rewrite <- S. ring.
Qed.

Lemma mantissa_to_scale_iff m s p x : p < 2 ^ 32 -> (Z.abs m < 2 ^ 96)%Z -> s <= p ->
  (mantissa_to_scale m s p = Ok x <-> p < s + 39 /\ x = (m * 10 ^ Z.of_N (p - s))%Z /\ (- 2 ^ 127 <= x < 2 ^ 127)%Z).
Proof.
  intros P M L. unfold mantissa_to_scale. replace (p <? s) with false by lia. destruct (N.eqb_spec p s) as [->|NE].
  - rewrite N.sub_diag. change (10 ^ Z.of_N 0)%Z with 1%Z. rewrite Z.mul_1_r. split.
    + intros H. injection H as <-. repeat split; lia.
    + intros (_ & -> & _). reflexivity.
  - destruct (N.leb_spec 39 (p - s)) as [G|G].
    + rewrite (pow10_panics 128 (p - s) 39 ltac:(lia) G ltac:(vm_compute; discriminate)). cbn [rbind]. split; [discriminate|lia].
    + rewrite (pow10_defined 128 (p - s) 38 ltac:(lia) ltac:(lia) ltac:(vm_compute; reflexivity)). cbn [rbind].
      generalize (10 ^ Z.of_N (p - s))%Z. intros q. generalize (m * q)%Z. intros y.
      destruct (Z.leb_spec (- 2 ^ 127) y), (Z.ltb_spec y (2 ^ 127)); cbn [andb]; (split; [intros H'; try discriminate H'; injection H' as <-; repeat split; lia|]);
        intros (_ & -> & ?); try reflexivity; lia.
Qed.
Lemma to_signed_iff bits x y : to_signed bits x = Ok y <-> y = x /\ (- 2 ^ (bits - 1) <= x < 2 ^ (bits - 1))%Z.
Proof.
  unfold to_signed. destruct (Z.leb_spec (- 2 ^ (bits - 1)) x), (Z.ltb_spec x (2 ^ (bits - 1))); cbn [andb]; split; try discriminate; try (intros [_ ?]; lia).
  - intros H'. injection H' as <-. auto.
  - intros [-> _]. reflexivity.
Qed.
Lemma bind_ok_iff {A B} (r : res A) (f : A -> res B) y : rbind r f = Ok y <-> exists x, r = Ok x /\ f x = Ok y.
Proof. destruct r; cbn [rbind]; split; try discriminate; try (intros (? & ? & ?); discriminate); [eauto|]. intros (? & [= <-] & ?). assumption. Qed.

Lemma dec_to_sql_accepts d t bits mk p v : p < 2 ^ 32 ->
  In (t, bits, mk) [(TDecimal32 p, 32%Z, VDecimal32 p); (TDecimal64 p, 64%Z, VDecimal64 p); (TDecimal128 p, 128%Z, VDecimal128 p)] ->
  (Z.abs (d_mantissa d) < 2 ^ 96)%Z ->
  (dec_to_sql d (Some t) = Ok v <->
   d_scale d <= p < d_scale d + 39 /\
   (- 2 ^ (bits - 1) <= d_mantissa d * 10 ^ Z.of_N (p - d_scale d) < 2 ^ (bits - 1))%Z /\
   v = mk (d_mantissa d * 10 ^ Z.of_N (p - d_scale d))%Z).
Proof.
  intros P I M.
  assert (B31 : (2 ^ 31 < 2 ^ 127)%Z) by reflexivity. assert (B63 : (2 ^ 63 < 2 ^ 127)%Z) by reflexivity.
  destruct I as [I|[I|[I|[]]]]; injection I as <- <- <-; cbn [dec_to_sql]; rewrite N.mod_small by exact P;
    (destruct (N.leb_spec (d_scale d) p) as [L|L]; [|split; [discriminate|lia]]).
  - rewrite bind_ok_iff. change (32 - 1)%Z with 31%Z. split.
    + intros (x & X & H). apply mantissa_to_scale_iff in X as (X1 & -> & X2); try assumption. apply bind_ok_iff in H as (y & Y & H).
      apply to_signed_iff in Y as [-> Y]. injection H as <-. change (32 - 1)%Z with 31%Z in Y. split; [lia|]. split; [exact Y|reflexivity].
    + intros (H1 & H2 & ->). eexists. split; [apply mantissa_to_scale_iff; try assumption; split; [lia|]; split; [reflexivity|lia]|].
      apply bind_ok_iff. eexists. split; [apply to_signed_iff; split; [reflexivity|exact H2]|reflexivity].
  - rewrite bind_ok_iff. change (64 - 1)%Z with 63%Z. split.
    + intros (x & X & H). apply mantissa_to_scale_iff in X as (X1 & -> & X2); try assumption. apply bind_ok_iff in H as (y & Y & H).
      apply to_signed_iff in Y as [-> Y]. injection H as <-. change (64 - 1)%Z with 63%Z in Y. split; [lia|]. split; [exact Y|reflexivity].
    + intros (H1 & H2 & ->). eexists. split; [apply mantissa_to_scale_iff; try assumption; split; [lia|]; split; [reflexivity|lia]|].
      apply bind_ok_iff. eexists. split; [apply to_signed_iff; split; [reflexivity|exact H2]|reflexivity].
  - rewrite bind_ok_iff. change (128 - 1)%Z with 127%Z. split.
    + intros (x & X & H). apply mantissa_to_scale_iff in X as (X1 & -> & X2); try assumption. injection H as <-. split; [lia|]. split; [exact X2|reflexivity].
    + intros (H1 & H2 & ->). eexists. split; [apply mantissa_to_scale_iff; try assumption; split; [lia|]; split; [reflexivity|exact H2]|reflexivity].
Qed.
