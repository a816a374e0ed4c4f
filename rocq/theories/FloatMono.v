From Coq Require Import ZArith NArith QArith Qreals Reals Psatz Floats.SpecFloat.
From Flocq Require Import Core Relative BinarySingleNaN.
From Verif Require Import Base Types Numeric Float64 FloatSpec FloatProofs.
Local Open Scope R_scope.
#[local] Existing Instances Hprec Hmax fx_valid fx_mono fx_ne.

Lemma cexp54 v : bpow radix2 53 <= v < bpow radix2 54 -> cexp radix2 fx v = 1%Z.
Proof.
  intros H. unfold cexp. rewrite (mag_unique_pos radix2 v 54); [reflexivity|exact H].
Qed.
Lemma r54 v : bpow radix2 53 <= v < bpow radix2 54 -> rnd v = 2 * IZR (ZnearestE (v / 2)).
Proof.
  intros H. unfold round, F2R, scaled_mantissa. cbn [Fnum Fexp]. rewrite (cexp54 v H). change (bpow radix2 1) with 2. rewrite Rmult_comm. f_equal.
Qed.
Lemma tie_down k : ZnearestE (IZR k - / 2) = k -> Z.even k = true.
Proof.
  unfold Znearest. assert (F : Zfloor (IZR k - / 2) = (k - 1)%Z) by (apply Zfloor_imp; rewrite plus_IZR, minus_IZR; lra).
  assert (C : Zceil (IZR k - / 2) = k) by (apply Zceil_imp; rewrite minus_IZR; lra).
  rewrite F, C. rewrite Rcompare_Eq by (rewrite minus_IZR; lra).
  destruct (Z.even (k - 1)) eqn:E; cbn; intros H; [lia|]. rewrite Z.even_sub in E. now destruct (Z.even k).
Qed.
Lemma tie_up k : Z.even k = true -> ZnearestE (IZR k + / 2) = k.
Proof.
  intros E. unfold Znearest. assert (F : Zfloor (IZR k + / 2) = k) by (apply Zfloor_imp; rewrite plus_IZR; lra).
  rewrite F. rewrite Rcompare_Eq by lra. now rewrite E.
Qed.

(** Above 2^53 the sum of a rounded integer and 1 never overtakes the rounded successor. *)
Lemma up1 i : (2 ^ 53 <= i)%Z -> rnd (rnd (IZR i) + 1) <= rnd (IZR i + 1).
Proof.
  intros H. destruct (Rle_or_lt (rnd (IZR i)) (IZR i)) as [L|L]; [apply rnd_le; lra|].
  assert (T53 : bpow radix2 53 = IZR (2 ^ 53)) by (symmetry; apply (IZR_Zpower radix2); discriminate).
  set (r := rnd (IZR i)) in *.
  assert (Fr : generic_format radix2 fx r) by (apply generic_format_round; [exact fx_valid|apply valid_rnd_N]).
  assert (R53 : bpow radix2 53 < r) by (rewrite T53; apply Rle_lt_trans with (IZR i); [now apply IZR_le|exact L]).
  assert (R0 : 0 < r) by (eapply Rlt_trans; [apply (bpow_gt_0 radix2 53)|exact R53]).
  apply Rle_trans with r; [|unfold r; apply rnd_le; lra].
  destruct (Rlt_or_le r (bpow radix2 54)) as [B|B].
  - (* spacing 2: ties go to even *)
    assert (C := cexp54 r (conj (Rlt_le _ _ R53) B)).
    assert (K : exists k, r = 2 * IZR k).
    { exists (Ztrunc (scaled_mantissa radix2 fx r)). rewrite Fr at 1. unfold F2R. cbn [Fnum Fexp]. rewrite C. change (bpow radix2 1) with 2. apply Rmult_comm. }
    destruct K as (k & K).
    assert (IK : (i <= 2 * k - 1)%Z) by (rewrite K, <- mult_IZR in L; apply lt_IZR in L; lia).
    assert (K53 : (2 ^ 53 <= 2 * k - 1)%Z) by lia.
    assert (D : rnd (r - 1) = r).
    { apply Rle_antisym.
      - rewrite <- (rnd_fix r Fr) at 2. apply rnd_le. lra.
      - apply (rnd_le (IZR i) (r - 1)). apply IZR_le in IK. rewrite minus_IZR, mult_IZR in IK. lra. }
    rewrite r54 in D.
    2:{ split; [|lra]. rewrite T53, K. apply IZR_le in K53. rewrite minus_IZR, mult_IZR in K53. exact K53. }
    assert (E : ZnearestE (IZR k - / 2) = k).
    { apply eq_IZR. replace ((r - 1) / 2) with (IZR k - / 2) in D by (rewrite K; field). rewrite K in D. lra. }
    apply tie_down in E. rewrite r54.
    + replace ((r + 1) / 2) with (IZR k + / 2) by (rewrite K; field). rewrite tie_up by exact E. lra.
    + split; [lra|].
      assert (T54 : bpow radix2 54 = IZR (2 * 2 ^ 53)) by (rewrite mult_IZR, <- T53; exact (bpow_plus_1 radix2 53)).
      rewrite T54 in *. rewrite K in *. rewrite <- mult_IZR in *. change 1 with (IZR 1). rewrite <- plus_IZR. apply lt_IZR in B. apply IZR_lt. lia.
  - (* spacing at least 4 *)
    apply round_N_le_midp; [exact fx_valid|exact Fr|]. rewrite succ_eq_pos by lra.
    assert (U : 4 <= ulp radix2 fx r).
    { rewrite ulp_neq_0 by lra. change 4 with (bpow radix2 2). apply bpow_le. unfold cexp.
      assert (M : (54 < mag radix2 r)%Z) by (apply mag_gt_bpow; rewrite Rabs_pos_eq; lra).
      unfold SpecFloat.fexp, SpecFloat.emin. lia. }
    lra.
Qed.

Lemma quo_mono f g m : 1 <= m -> f <= g -> quo f m <= quo g m.
Proof.
  intros M H. unfold quo. apply rnd_le. apply Rmult_le_compat_r; [left; apply Rinv_0_lt_compat; assert (G := rnd_ge1 m M); lra|now apply rnd_le].
Qed.
Lemma quo_0 m : quo 0 m = 0.
Proof. unfold quo. rewrite rnd_0. unfold Rdiv. rewrite Rmult_0_l. apply rnd_0. Qed.
Lemma quo_pos f m : 1 <= m -> 0 <= f -> 0 <= quo f m.
Proof. intros M F. rewrite <- (quo_0 m). now apply quo_mono. Qed.
Lemma conv_pos i f m : 1 <= m -> 0 <= i -> 0 <= f -> 0 <= conv i f m.
Proof.
  intros M I F. unfold conv. rewrite <- rnd_0. apply rnd_le. assert (Q := quo_pos f m M F). assert (J := rnd_le 0 i I). rewrite rnd_0 in J. lra.
Qed.
Lemma conv_mono_pos i j f g m : (1 <= m)%Z -> (0 <= i)%Z -> (0 <= f < m)%Z -> (0 <= g < m)%Z -> (i < j \/ i = j /\ f <= g)%Z ->
  conv (IZR i) (IZR f) (IZR m) <= conv (IZR j) (IZR g) (IZR m).
Proof.
  intros M I F G C. assert (M1 : 1 <= IZR m) by (now apply IZR_le). destruct C as [C|[<- C]].
  - assert (Q1 : quo (IZR f) (IZR m) <= 1).
    { eapply Rle_trans; [apply RRle_abs|]. apply quo_le1; [exact M1|]. rewrite <- abs_IZR. apply IZR_le. lia. }
    assert (Q2 : 0 <= quo (IZR g) (IZR m)) by (apply quo_pos; [exact M1|apply IZR_le; lia]).
    assert (J : IZR i + 1 <= IZR j) by (rewrite <- (plus_IZR i 1); apply IZR_le; lia).
    unfold conv. apply Rle_trans with (rnd (rnd (IZR i) + 1)); [apply rnd_le; lra|].
    apply Rle_trans with (rnd (IZR i + 1)).
    + destruct (Z.le_gt_cases (2 ^ 53) i) as [B|B]; [now apply up1|].
      rewrite (rnd_fix (IZR i)) by (apply format_int; lia). apply Rle_refl.
    + apply Rle_trans with (rnd (IZR j)); [now apply rnd_le|].
      rewrite <- (rnd_fix (rnd (IZR j))) at 1 by (apply generic_format_round; [exact fx_valid|apply valid_rnd_N]). apply rnd_le. lra.
  - unfold conv. apply rnd_le. apply Rplus_le_compat_l. apply quo_mono; [exact M1|apply IZR_le; exact C].
Qed.
Lemma quot_order x y m : (1 <= m -> 0 <= x <= y -> Z.quot x m < Z.quot y m \/ Z.quot x m = Z.quot y m /\ Z.rem x m <= Z.rem y m)%Z.
Proof.
  intros M H. assert (L := Z.quot_le_mono x y m ltac:(lia) ltac:(lia)). assert (X := Z.quot_rem' x m). assert (Y := Z.quot_rem' y m).
  destruct (Z.eq_dec (Z.quot x m) (Z.quot y m)) as [E|E]; [right|left; lia]. split; [exact E|]. rewrite E in X. lia.
Qed.
Definition cv (p : N) (x : Z) : R := let m := (10 ^ Z.of_N p)%Z in conv (IZR (Z.quot x m)) (IZR (Z.rem x m)) (IZR m).
Lemma cv_opp p x : cv p (- x) = - cv p x.
Proof. unfold cv. cbv zeta. assert (M := m_pos p). rewrite Z.quot_opp_l, Z.rem_opp_l by lia. rewrite !opp_IZR. apply conv_opp. Qed.
Lemma cv_pos p x : (0 <= x)%Z -> 0 <= cv p x.
Proof.
  intros H. assert (M := m_pos p). apply conv_pos; [now apply IZR_le|apply IZR_le, Z.quot_pos; lia|apply IZR_le].
  assert (F : (0 <= Z.rem x (10 ^ Z.of_N p) < 10 ^ Z.of_N p)%Z) by (apply Z.rem_bound_pos; lia). lia.
Qed.
Lemma cv_mono_pos p x y : (0 <= x <= y)%Z -> cv p x <= cv p y.
Proof.
  intros H. assert (M := m_pos p). apply conv_mono_pos; [exact M|apply Z.quot_pos; lia|apply Z.rem_bound_pos; lia|apply Z.rem_bound_pos; lia|].
  now apply quot_order.
Qed.
Lemma cv_mono p x y : (x <= y)%Z -> cv p x <= cv p y.
Proof.
  intros H. destruct (Z.le_gt_cases 0 x) as [X|X]; [now apply cv_mono_pos|].
  destruct (Z.le_gt_cases 0 y) as [Y|Y].
  - assert (A := cv_pos p y Y). assert (B := cv_pos p (- x) ltac:(lia)). rewrite cv_opp in B. lra.
  - assert (A := cv_mono_pos p (- y) (- x) ltac:(lia)). rewrite !cv_opp in A. lra.
Qed.

Lemma cv_worth bits p x : (1 <= bits <= 128)%Z -> (p < 2 ^ 32)%N -> (10 ^ Z.of_N p < 2 ^ (bits - 1))%Z -> (- 2 ^ (bits - 1) <= x < 2 ^ (bits - 1))%Z ->
  exists v q, fp_to_f64 bits p x = Ok v /\ is_f64 v /\ f64_val v = Some q /\ Q2R q = cv p x.
Proof.
  intros B P M X. destruct (fp_worth bits p x B P M X) as (v & V & W). destruct (worth_val _ _ W) as (V' & q & Q & QR).
  exists v, q. repeat (split; [assumption|]). exact QR.
Qed.

Lemma cv_int p v : (Z.abs v <= 2 ^ 53)%Z -> cv p (v * 10 ^ Z.of_N p) = IZR v.
Proof.
  intros H. unfold cv. cbv zeta. assert (M := m_pos p). rewrite Z.quot_mul, Z.rem_mul by lia.
  unfold conv. rewrite quo_0, Rplus_0_r. rewrite (rnd_fix (IZR v)) by (now apply format_int). apply rnd_fix. now apply format_int.
Qed.
Lemma cv_dyadic p x a e : (p <= 22)%N -> (Z.abs x <= 2 ^ 53)%Z -> (Z.abs a <= 2 ^ 53)%Z -> (-1074 <= e)%Z ->
  IZR x / IZR (10 ^ Z.of_N p) = IZR a * bpow radix2 e -> cv p x = IZR a * bpow radix2 e.
Proof.
  intros P X A E. assert (M := m_pos p). assert (TE := ten_exact p P).
  assert (QA := quot_abs_le x _ M). assert (XR := Z.quot_rem' x (10 ^ Z.of_N p)).
  assert (FX : (Z.abs (Z.rem x (10 ^ Z.of_N p)) <= Z.abs x)%Z).
  { rewrite <- Z.rem_abs by lia. rewrite (Z.abs_eq (10 ^ _)) by lia. apply Z.rem_le; lia. }
  unfold cv. cbv zeta. revert M TE QA XR FX. generalize (10 ^ Z.of_N p)%Z. intros m M TE QA XR FX V.
  revert QA XR FX. generalize (Z.quot x m) (Z.rem x m). intros i f QA XR FX.
  assert (MR : 1 <= IZR m) by (now apply IZR_le).
  unfold conv, quo. rewrite (rnd_fix (IZR i)), (rnd_fix (IZR f)), (rnd_fix (IZR m)); [|exact TE|apply format_int; lia|apply format_int; lia].
  assert (FE : IZR f / IZR m = IZR a * bpow radix2 e - IZR i) by (rewrite <- V, XR, plus_IZR, mult_IZR; field; lra).
  assert (FL : Rabs (IZR f / IZR m) <= Rabs (IZR a * bpow radix2 e)).
  { rewrite <- V. unfold Rdiv. rewrite !Rabs_mult. apply Rmult_le_compat_r; [apply Rabs_pos|]. rewrite <- !abs_IZR. now apply IZR_le. }
  assert (FQ : generic_format radix2 fx (IZR f / IZR m)).
  { destruct (Z.le_gt_cases e 0) as [E0|E0].
    - assert (EB : IZR i = IZR (i * 2 ^ (- e)) * bpow radix2 e).
      { rewrite mult_IZR, (IZR_Zpower radix2) by lia. rewrite Rmult_assoc, <- bpow_plus. replace (- e + e)%Z with 0%Z by lia. cbn. ring. }
      rewrite FE, EB, <- Rmult_minus_distr_r, <- minus_IZR. apply format_dyadic; [|exact E].
      rewrite FE, EB, <- Rmult_minus_distr_r, <- minus_IZR, !Rabs_mult in FL. apply Rmult_le_reg_r in FL; [|apply Rabs_pos_lt; apply Rgt_not_eq, bpow_gt_0].
      rewrite <- !abs_IZR in FL. apply le_IZR in FL. lia.
    - rewrite <- (IZR_Zpower radix2) in FE, FL by lia. rewrite <- mult_IZR in FE, FL. rewrite FE, <- minus_IZR. apply format_int.
      rewrite FE, <- minus_IZR, <- !abs_IZR in FL. apply le_IZR in FL. eapply Z.le_trans; [exact FL|].
      rewrite <- (IZR_Zpower radix2), <- mult_IZR in V by lia. eapply Z.le_trans; [|exact X]. apply le_IZR. rewrite !abs_IZR, <- V.
      unfold Rdiv. rewrite Rabs_mult. rewrite <- (Rmult_1_r (Rabs (IZR x))) at 2. apply Rmult_le_compat_l; [apply Rabs_pos|].
      rewrite Rabs_inv, Rabs_pos_eq by lra. rewrite <- Rinv_1. apply Rinv_le; lra. }
  rewrite (rnd_fix (IZR f / IZR m)) by exact FQ. rewrite FE. replace (IZR i + (IZR a * bpow radix2 e - IZR i)) with (IZR a * bpow radix2 e) by ring.
  apply rnd_fix. now apply format_dyadic.
Qed.

Lemma mono bits p x y : (1 <= bits <= 128)%Z -> (p < 2 ^ 32)%N -> (10 ^ Z.of_N p < 2 ^ (bits - 1))%Z ->
  (- 2 ^ (bits - 1) <= x)%Z -> (x <= y)%Z -> (y < 2 ^ (bits - 1))%Z ->
  exists f g q r, fp_to_f64 bits p x = Ok f /\ fp_to_f64 bits p y = Ok g /\ f64_val f = Some q /\ f64_val g = Some r /\ (q <= r)%Q.
Proof.
  intros B P M L XY H. destruct (cv_worth bits p x B P M ltac:(lia)) as (f & q & F1 & _ & F2 & F3).
  destruct (cv_worth bits p y B P M ltac:(lia)) as (g & r & G1 & _ & G2 & G3).
  exists f, g, q, r. repeat (split; [assumption|]). apply Rle_Qle. rewrite F3, G3. now apply cv_mono.
Qed.
Lemma exact_int bits p v : (1 <= bits <= 128)%Z -> (p < 2 ^ 32)%N -> (10 ^ Z.of_N p < 2 ^ (bits - 1))%Z ->
  (- 2 ^ (bits - 1) <= v * 10 ^ Z.of_N p < 2 ^ (bits - 1))%Z -> (Z.abs v <= 2 ^ 53)%Z ->
  exists f q, fp_to_f64 bits p (v * 10 ^ Z.of_N p) = Ok f /\ f64_val f = Some q /\ (q == inject_Z v)%Q.
Proof.
  intros B P M X V. destruct (cv_worth bits p _ B P M X) as (f & q & F1 & _ & F2 & F3). exists f, q. split; [exact F1|]. split; [exact F2|].
  apply eqR_Qeq. rewrite F3, cv_int by exact V. unfold Q2R, inject_Z. cbn [Qnum Qden]. now rewrite Rinv_1, Rmult_1_r.
Qed.
Lemma exact_dyadic bits p x a e : (1 <= bits <= 128)%Z -> (p <= 22)%N -> (10 ^ Z.of_N p < 2 ^ (bits - 1))%Z ->
  (- 2 ^ (bits - 1) <= x < 2 ^ (bits - 1))%Z -> (Z.abs x <= 2 ^ 53)%Z -> (Z.abs a <= 2 ^ 53)%Z -> (-1074 <= e)%Z -> (fixed p x == dyadic a e)%Q ->
  exists f q, fp_to_f64 bits p x = Ok f /\ f64_val f = Some q /\ (q == fixed p x)%Q.
Proof.
  intros B P M X XS A E V. destruct (cv_worth bits p x B ltac:(lia) M X) as (f & q & F1 & _ & F2 & F3). exists f, q. split; [exact F1|]. split; [exact F2|].
  rewrite V. apply eqR_Qeq. rewrite F3, dyadic_R. apply cv_dyadic; try assumption. apply Qeq_eqR in V. rewrite fixed_R, dyadic_R in V. exact V.
Qed.
Lemma panics bits p x : (p < 2 ^ 32)%N -> (fp_to_f64 bits p x = Panic <-> 2 ^ (bits - 1) <= 10 ^ Z.of_N p)%Z.
Proof.
  intros P. unfold fp_to_f64, fp_integer, fp_fraction, fp_modulus, pow10. rewrite N.mod_small by exact P.
  destruct (Z.ltb_spec (10 ^ Z.of_N p) (2 ^ (bits - 1))) as [H|H]; cbn; [split; [discriminate|intros; lia]|now split].
Qed.
Lemma strict bits p x y : (bits = 32 \/ bits = 64 \/ bits = 128)%Z -> (p < 2 ^ 32)%N -> (10 ^ Z.of_N p < 2 ^ (bits - 1))%Z ->
  (- 2 ^ (bits - 1) <= x)%Z -> (x < y)%Z -> (y < 2 ^ (bits - 1))%Z -> (Z.abs x <= 2 ^ 49)%Z -> (Z.abs y <= 2 ^ 49)%Z ->
  exists f g q r, fp_to_f64 bits p x = Ok f /\ fp_to_f64 bits p y = Ok g /\ f64_val f = Some q /\ f64_val g = Some r /\ (q < r)%Q.
Proof.
  intros B P M L XY H XS YS.
  assert (K : exists k, (bits = 32 /\ k = 3 \/ bits = 64 /\ k = 4 \/ bits = 128 /\ k = 5)%Z /\ (k <= 5)%Z).
  { destruct B as [->|[->| ->]]; [exists 3%Z|exists 4%Z|exists 5%Z]; (split; [|lia]); tauto. }
  destruct K as (k & K & K5).
  destruct (close bits p x k K P M ltac:(lia)) as (f & q & F1 & _ & F2 & F3).
  destruct (close bits p y k K P M ltac:(lia)) as (g & r & G1 & _ & G2 & G3).
  exists f, g, q, r. repeat (split; [assumption|]). apply Rlt_Qlt.
  assert (T : forall z, (Z.abs z <= 2 ^ 49)%Z -> forall q, (Qabs.Qabs (q - fixed p z) <= Qabs.Qabs (fixed p z) * (k # 2 ^ 53))%Q ->
    Rabs (Q2R q - IZR z / IZR (10 ^ Z.of_N p)) <= / IZR (10 ^ Z.of_N p) * (5 / 16)).
  { intros z Z q' C. apply Qle_Rle in C. rewrite Q2R_mult, !Qabs_R, Q2R_minus, kR, fixed_R in C. eapply Rle_trans; [exact C|].
    assert (M1 := IZR_le _ _ (m_pos p)). assert (U := u_pos).
    unfold Rdiv. rewrite Rabs_mult, Rabs_inv, (Rabs_pos_eq (IZR (10 ^ _))) by lra.
    rewrite (Rmult_comm (Rabs _)), Rmult_assoc. apply Rmult_le_compat_l; [left; apply Rinv_0_lt_compat; lra|].
    rewrite <- abs_IZR. apply IZR_le in Z. apply IZR_le in K5.
    assert (U49 : IZR (2 ^ 49) * u = / 16).
    { unfold u. replace (IZR (2 ^ 53)) with (IZR (2 ^ 49) * 16) by (rewrite <- mult_IZR; reflexivity). field. apply IZR_neq. discriminate. }
    assert (A0 : 0 <= IZR (Z.abs z)) by (apply IZR_le, Z.abs_nonneg).
    apply Rle_trans with (IZR (Z.abs z) * (5 * u)).
    - apply Rmult_le_compat_l; [exact A0|]. apply Rmult_le_compat_r; lra.
    - replace (IZR (Z.abs z) * (5 * u)) with (5 * (IZR (Z.abs z) * u)) by ring.
      assert (IZR (Z.abs z) * u <= / 16) by (rewrite <- U49; apply Rmult_le_compat_r; lra). lra. }
  assert (A := Rabs_le_inv _ _ (T x XS q F3)). assert (C := Rabs_le_inv _ _ (T y YS r G3)).
  assert (D : IZR x / IZR (10 ^ Z.of_N p) + / IZR (10 ^ Z.of_N p) <= IZR y / IZR (10 ^ Z.of_N p)).
  { unfold Rdiv. rewrite <- (Rmult_1_l (/ IZR (10 ^ Z.of_N p))) at 2. rewrite <- Rmult_plus_distr_r.
    assert (M1 := IZR_le _ _ (m_pos p)). apply Rmult_le_compat_r; [left; apply Rinv_0_lt_compat; lra|]. rewrite <- (plus_IZR x 1). apply IZR_le. lia. }
  assert (M1 := IZR_le _ _ (m_pos p)). assert (I0 : 0 < / IZR (10 ^ Z.of_N p)) by (apply Rinv_0_lt_compat; lra). lra.
Qed.
