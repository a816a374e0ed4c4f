From Coq Require Import ZArith NArith QArith Qreals Reals Psatz Floats.SpecFloat.
From Flocq Require Import Core Relative BinarySingleNaN.
From Verif Require Import Base Types Numeric Float64 FloatSpec.
Local Open Scope Z_scope.

Notation prec := 53%Z.
Notation emax := 1024%Z.
#[local] Instance Hprec : Prec_gt_0 prec := eq_refl.
#[local] Instance Hmax : Prec_lt_emax prec emax := eq_refl.
Notation b64 := (binary_float prec emax).
Notation fx := (SpecFloat.fexp prec emax).
Notation rnd := (round radix2 fx ZnearestE).
#[local] Instance fx_valid : Valid_exp fx := FLT_exp_valid (emin prec emax) prec.
#[local] Instance fx_mono : Monotone_exp fx := FLT_exp_monotone (emin prec emax) prec.
#[local] Instance fx_ne : Exists_NE radix2 fx := exists_NE_FLT radix2 (emin prec emax) prec (or_intror eq_refl).

(* ---- SpecFloat's operations are Flocq's (as in Flocq's PrimFloat, without primitive floats) ---- *)
Lemma rne_equiv s m l : round_nearest_even m l = choice_mode mode_NE s m l.
Proof. case l; [reflexivity|intro c]. case c; [|reflexivity..]. now simpl; unfold Round.cond_incr; case Z.even. Qed.
Lemma bra_equiv sx mx ex lx : SpecFloat.binary_round_aux prec emax sx mx ex lx = BinarySingleNaN.binary_round_aux prec emax mode_NE sx mx ex lx.
Proof.
  unfold SpecFloat.binary_round_aux, binary_round_aux. set (mrse' := shr_fexp _ _ _). case mrse'; intros mrs' e'; simpl.
  now rewrite (rne_equiv sx).
Qed.
Lemma br_equiv s m e : SpecFloat.binary_round prec emax s m e = BinarySingleNaN.binary_round prec emax mode_NE s m e.
Proof. unfold SpecFloat.binary_round, binary_round, shl_align_fexp. set (mez := shl_align _ _ _); case mez as [mz ez]. apply bra_equiv. Qed.
Lemma bn_equiv m e z : SpecFloat.binary_normalize prec emax m e z = B2SF (BinarySingleNaN.binary_normalize prec emax Hprec Hmax mode_NE m e z).
Proof. case m as [|p|p]; [now simpl|simpl; rewrite B2SF_SF2B; apply br_equiv..]. Qed.
Lemma add_equiv (x y : b64) : f64_add (B2SF x) (B2SF y) = B2SF (Bplus mode_NE x y).
Proof.
  unfold f64_add. case x as [sx|sx| |sx mx ex Bx]; case y as [sy|sy| |sy my ey By]; [now (trivial || simpl; case Bool.eqb)..|].
  apply bn_equiv.
Qed.
Lemma div_equiv (x y : b64) : f64_div (B2SF x) (B2SF y) = B2SF (Bdiv mode_NE x y).
Proof.
  unfold f64_div. case x as [sx|sx| |sx mx ex Bx]; case y as [sy|sy| |sy my ey By]; [now (trivial || simpl; case Bool.eqb)..|].
  simpl. rewrite B2SF_SF2B. set (melz := SFdiv_core_binary _ _ _ _ _ _). case melz as [[mz ez] lz]. apply bra_equiv.
Qed.

(* ---- the three operations, as real numbers ---- *)
Local Open Scope R_scope.
Definition big : R := bpow radix2 1000.
Lemma small_round x : Rabs x <= big -> Rabs (rnd x) < bpow radix2 emax.
Proof.
  intros H. apply Rle_lt_trans with big; [|unfold big; apply bpow_lt; lia].
  apply abs_round_le_generic; [exact fx_valid|apply valid_rnd_N| |exact H].
  unfold big. apply generic_format_bpow. unfold SpecFloat.fexp, SpecFloat.emin. lia.
Qed.

(** [b] is a finite double worth [r]. *)
Definition worth (f : f64) (r : R) : Prop := exists b : b64, f = B2SF b /\ is_finite b = true /\ B2R b = r.
Lemma of_int_worth z : Rabs (IZR z) <= big -> worth (f64_of_int z) (rnd (IZR z)).
Proof.
  intros H. unfold f64_of_int. rewrite bn_equiv. eexists. split; [reflexivity|].
  assert (C := binary_normalize_correct prec emax Hprec Hmax mode_NE z 0 false).
  cbv zeta in C. assert (X : F2R (Float radix2 z 0) = IZR z) by (unfold F2R; cbn [Fnum Fexp]; cbn; lra).
  rewrite X in C. rewrite Rlt_bool_true in C by (apply small_round; exact H).
  destruct C as (C1 & C2 & _). split; [exact C2|exact C1].
Qed.
Lemma add_worth f g r s : worth f r -> worth g s -> Rabs (r + s) <= big -> worth (f64_add f g) (rnd (r + s)).
Proof.
  intros (a & -> & Fa & <-) (b & -> & Fb & <-) H. rewrite add_equiv. eexists. split; [reflexivity|].
  assert (C := Bplus_correct prec emax Hprec Hmax mode_NE a b Fa Fb).
  rewrite Rlt_bool_true in C by (apply small_round; exact H). destruct C as (C1 & C2 & _). split; [exact C2|exact C1].
Qed.
Lemma div_worth f g r s : worth f r -> worth g s -> s <> 0 -> Rabs (r / s) <= big -> worth (f64_div f g) (rnd (r / s)).
Proof.
  intros (a & -> & Fa & <-) (b & -> & Fb & <-) Z H. rewrite div_equiv. eexists. split; [reflexivity|].
  assert (C := Bdiv_correct prec emax Hprec Hmax mode_NE a b Z).
  rewrite Rlt_bool_true in C by (apply small_round; exact H). destruct C as (C1 & C2 & _). rewrite Fa in C2. split; [exact C2|exact C1].
Qed.

(* ---- rounding of the numbers that occur ---- *)
Definition u : R := / IZR (2 ^ 53).
Lemma u_pos : 0 < u. Proof. unfold u. apply Rinv_0_lt_compat. apply IZR_lt. reflexivity. Qed.
Lemma u_small : u <= / 1000000. Proof. unfold u. apply Rinv_le; [lra|]. apply IZR_le. discriminate. Qed.
Lemma u_half : / 2 * bpow radix2 (- prec + 1) = u.
Proof. unfold u. change (- prec + 1)%Z with (-52)%Z. cbn. rewrite <- Rinv_mult. f_equal. Qed.
Lemma rnd_rel x : x = 0 \/ bpow radix2 (-1022) <= Rabs x -> exists e, Rabs e <= u /\ rnd x = x * (1 + e).
Proof.
  intros [->|H].
  - exists 0. split; [rewrite Rabs_R0; left; apply u_pos|]. rewrite round_0; [ring|apply valid_rnd_N].
  - destruct (relative_error_N_FLT_ex radix2 (emin prec emax) prec eq_refl (fun z => negb (Z.even z)) x) as (e & E1 & E2).
    { eapply Rle_trans; [|exact H]. apply bpow_le. unfold emin, SpecFloat.emin. lia. }
    exists e. rewrite u_half in E1. split; [exact E1|exact E2].
Qed.
Lemma int_normal z : IZR z = 0 \/ bpow radix2 (-1022) <= Rabs (IZR z).
Proof.
  destruct (Z.eq_dec z 0) as [->|N]; [now left|]. right.
  apply Rle_trans with 1; [change 1 with (bpow radix2 0); apply bpow_le; discriminate|].
  rewrite <- abs_IZR. apply IZR_le. lia.
Qed.
Lemma rnd_le x y : x <= y -> rnd x <= rnd y.
Proof. apply round_le; [exact fx_valid|apply valid_rnd_N]. Qed.
Lemma rnd_0 : rnd 0 = 0. Proof. apply round_0. apply valid_rnd_N. Qed.
Lemma rnd_opp x : rnd (- x) = - rnd x. Proof. apply round_NE_opp. Qed.
Lemma rnd_fix x : generic_format radix2 fx x -> rnd x = x.
Proof. apply round_generic. apply valid_rnd_N. Qed.
(** [m * 2^e] with at most 53 bits is a double. *)
Lemma format_dyadic m e : (Z.abs m <= 2 ^ 53)%Z -> (-1074 <= e)%Z -> generic_format radix2 fx (IZR m * bpow radix2 e).
Proof.
  intros M E. destruct (Z.eq_dec (Z.abs m) (2 ^ 53)) as [A|A].
  - assert (B : generic_format radix2 fx (bpow radix2 (53 + e))).
    { apply generic_format_bpow. unfold SpecFloat.fexp, SpecFloat.emin. lia. }
    rewrite bpow_plus in B. change (bpow radix2 53) with (IZR (2 ^ 53)) in B.
    destruct (Z.abs_eq_or_opp m) as [P|P]; rewrite P in A.
    + now rewrite A.
    + replace m with (- 2 ^ 53)%Z by lia. rewrite opp_IZR. rewrite Ropp_mult_distr_l_reverse. apply generic_format_opp. exact B.
  - apply (generic_format_FLT radix2 (-1074) prec). exists (Float radix2 m e); cbn [Fnum Fexp]; [reflexivity| |lia].
    change (radix2 ^ prec)%Z with (2 ^ 53)%Z. lia.
Qed.
Lemma format_int z : (Z.abs z <= 2 ^ 53)%Z -> generic_format radix2 fx (IZR z).
Proof. intros H. replace (IZR z) with (IZR z * bpow radix2 0) by (cbn; ring). apply format_dyadic; [exact H|lia]. Qed.

(* ---- the conversion, as a real function ---- *)
Definition quo (f m : R) : R := rnd (rnd f / rnd m).
Definition conv (i f m : R) : R := rnd (rnd i + quo f m).

Lemma rnd_ge1 m : 1 <= m -> 1 <= rnd m.
Proof. intros H. rewrite <- (rnd_fix 1) by (apply (format_int 1); discriminate). now apply rnd_le. Qed.
Lemma rnd_abs x : rnd (Rabs x) = Rabs (rnd x).
Proof. apply round_NE_abs. exact fx_valid. Qed.
Lemma quo_abs f m : 1 <= m -> Rabs f <= m -> Rabs (rnd f / rnd m) <= 1.
Proof.
  intros M F. assert (G := rnd_ge1 m M). assert (A : Rabs (rnd f) <= rnd m) by (rewrite <- rnd_abs; now apply rnd_le).
  unfold Rdiv. rewrite Rabs_mult, Rabs_inv, (Rabs_pos_eq (rnd m)) by lra. apply Rmult_le_reg_r with (rnd m); [lra|].
  rewrite Rmult_assoc, Rinv_l by lra. lra.
Qed.
Lemma rnd_abs1 x : Rabs x <= 1 -> Rabs (rnd x) <= 1.
Proof. intros H. rewrite <- rnd_abs. rewrite <- (rnd_fix 1) by (apply (format_int 1); discriminate). now apply rnd_le. Qed.
Lemma quo_le1 f m : 1 <= m -> Rabs f <= m -> Rabs (quo f m) <= 1.
Proof. intros M F. apply rnd_abs1. now apply quo_abs. Qed.

Lemma one_big : 1 <= big. Proof. unfold big. change 1 with (bpow radix2 0). apply bpow_le. discriminate. Qed.
Lemma int_big k z : (0 <= k < 1000)%Z -> (Z.abs z <= 2 ^ k)%Z -> Rabs (IZR z) <= bpow radix2 k.
Proof.
  intros K H. rewrite <- abs_IZR. rewrite <- (IZR_Zpower radix2) by lia. apply IZR_le. exact H.
Qed.

Lemma quot_abs_le x m : (1 <= m -> Z.abs (Z.quot x m) <= Z.abs x)%Z.
Proof.
  intros M. assert (M0 : m <> 0%Z) by lia. rewrite <- Z.quot_abs by exact M0.
  rewrite (Z.abs_eq m) by lia. assert (A := Z.abs_nonneg x). revert A. generalize (Z.abs x). clear x. intros x A.
  apply Z.quot_le_upper_bound; [lia|]. rewrite <- (Z.mul_1_l x) at 1. apply Z.mul_le_mono_nonneg_r; assumption.
Qed.
Lemma m_pos p : (1 <= 10 ^ Z.of_N p)%Z.
Proof. assert (0 < 10 ^ Z.of_N p)%Z by (apply Z.pow_pos_nonneg; lia). lia. Qed.
Lemma two_127 bits : (bits <= 128 -> 2 ^ (bits - 1) <= 2 ^ 127)%Z.
Proof. intros H. apply Z.pow_le_mono_r; lia. Qed.
Section Conv.
  Variables (bits : Z) (p : N) (x : Z).
  Hypothesis bits_ok : (1 <= bits <= 128)%Z.
  Hypothesis p_ok : (p < 2 ^ 32)%N.
  Hypothesis m_ok : (10 ^ Z.of_N p < 2 ^ (bits - 1))%Z.
  Hypothesis x_ok : (- 2 ^ (bits - 1) <= x < 2 ^ (bits - 1))%Z.
  Let m := (10 ^ Z.of_N p)%Z.
  Let i := Z.quot x m.
  Let f := Z.rem x m.

  Lemma pow10_ok : pow10 bits p = Ok m.
  Proof.
    unfold pow10. rewrite N.mod_small by exact p_ok. fold m. fold m in m_ok. apply Z.ltb_lt in m_ok. now rewrite m_ok.
  Qed.
  Lemma f_abs : (Z.abs f < m)%Z.
  Proof. unfold f. assert (M := m_pos p). fold m in M. assert (H := Z.rem_bound_abs x m). lia. Qed.
  Lemma i_abs : (Z.abs i <= Z.abs x)%Z.
  Proof. apply quot_abs_le. exact (m_pos p). Qed.
  Lemma x_eq : x = (m * i + f)%Z. Proof. unfold i, f. apply Z.quot_rem'. Qed.

  Lemma fp_is : fp_to_f64 bits p x = Ok (f64_add (f64_of_int i) (f64_div (f64_of_int f) (f64_of_int m))).
  Proof. unfold fp_to_f64, fp_integer, fp_fraction, fp_modulus. rewrite pow10_ok. reflexivity. Qed.

  Lemma m1R : 1 <= IZR m. Proof. apply IZR_le. apply (m_pos p). Qed.
  Lemma f_absR : Rabs (IZR f) <= IZR m.
  Proof. rewrite <- abs_IZR. apply IZR_le. assert (H := f_abs). lia. Qed.

  Lemma fp_worth : exists v, fp_to_f64 bits p x = Ok v /\ worth v (conv (IZR i) (IZR f) (IZR m)).
  Proof.
    eexists. split; [exact fp_is|].
    assert (T := two_127 bits (proj2 bits_ok)). assert (M := m_pos p). fold m in M. assert (FA := f_abs). assert (IA := i_abs). fold m in m_ok.
    assert (B : bpow radix2 127 <= big) by (unfold big; apply bpow_le; discriminate).
    assert (W : forall z, (Z.abs z <= 2 ^ 127)%Z -> worth (f64_of_int z) (rnd (IZR z))).
    { intros z H. apply of_int_worth. eapply Rle_trans; [apply (int_big 127); [lia|exact H]|exact B]. }
    apply add_worth.
    - apply W. lia.
    - apply div_worth; [apply W; lia|apply W; lia| |].
      + assert (G := rnd_ge1 _ m1R). lra.
      + eapply Rle_trans; [apply quo_abs; [apply m1R|apply f_absR]|apply one_big].
    - eapply Rle_trans; [apply Rabs_triang|].
      assert (Q := quo_le1 _ _ m1R f_absR).
      assert (I1 : Rabs (rnd (IZR i)) <= bpow radix2 127).
      { apply abs_round_le_generic; [exact fx_valid|apply valid_rnd_N| |].
        - apply generic_format_bpow. unfold SpecFloat.fexp, SpecFloat.emin. lia.
        - apply int_big; lia. }
      assert (O : 1 <= bpow radix2 127) by (change 1 with (bpow radix2 0); apply bpow_le; discriminate).
      assert (D : bpow radix2 128 = 2 * bpow radix2 127) by (exact (bpow_plus_1 radix2 127)).
      assert (D2 : bpow radix2 128 <= big) by (unfold big; apply bpow_le; discriminate).
      revert B I1 O D D2 Q. generalize (bpow radix2 127) (bpow radix2 128) big (Rabs (rnd (IZR i))) (Rabs (quo (IZR f) (IZR m))). clear. intros; lra.
  Qed.
End Conv.

(* ---- error analysis ---- *)
Lemma conv_opp i f m : conv (- i) (- f) m = - conv i f m.
Proof.
  unfold conv, quo. rewrite !rnd_opp. unfold Rdiv. rewrite Ropp_mult_distr_l_reverse, rnd_opp, <- Ropp_plus_distr, rnd_opp. reflexivity.
Qed.
Lemma mul1 x y p q : Rabs (x - 1) <= p -> Rabs (y - 1) <= q -> Rabs (x * y - 1) <= (1 + p) * (1 + q) - 1.
Proof.
  intros X Y. replace (x * y - 1) with ((x - 1) * (y - 1) + ((x - 1) + (y - 1))) by ring.
  eapply Rle_trans; [apply Rabs_triang|]. rewrite Rabs_mult.
  assert (T := Rabs_triang (x - 1) (y - 1)). assert (A := Rabs_pos (x - 1)). assert (B := Rabs_pos (y - 1)).
  assert (M : Rabs (x - 1) * Rabs (y - 1) <= p * q) by (apply Rmult_le_compat; assumption).
  replace ((1 + p) * (1 + q) - 1) with (p * q + (p + q)) by ring. lra.
Qed.
Lemma inv1 e p : 0 <= p <= / 1000000 -> Rabs e <= p -> Rabs (/ (1 + e) - 1) <= p * (1 + / 1000).
Proof.
  intros P E. apply Rabs_le_inv in E.
  assert (N : 1 + e <> 0) by lra. replace (/ (1 + e) - 1) with (- e * / (1 + e)) by (field; exact N).
  rewrite Rabs_mult, Rabs_Ropp, Rabs_inv, (Rabs_pos_eq (1 + e)) by lra.
  apply Rmult_le_compat; [apply Rabs_pos|left; apply Rinv_0_lt_compat; lra|apply Rabs_le; lra|].
  apply Rmult_le_reg_r with (1 + e); [lra|]. rewrite Rinv_l by exact N. nra.
Qed.
(** [x] rounded with relative error at most [p]. *)
Definition within (p x : R) : Prop := exists e, Rabs e <= p /\ rnd x = x * (1 + e).
Lemma within_u x : x = 0 \/ bpow radix2 (-1022) <= Rabs x -> within u x.
Proof. exact (rnd_rel x). Qed.
Lemma within_0 x : generic_format radix2 fx x -> within 0 x.
Proof. intros H. exists 0. split; [rewrite Rabs_R0; lra|]. rewrite rnd_fix by exact H. ring. Qed.

Lemma conv_close_pos i f m p2 p3 k : 0 <= i -> 0 <= f <= m -> 1 <= m ->
  within u i -> within p2 f -> within p3 m -> 0 <= p2 <= u -> 0 <= p3 <= u ->
  (f = 0 \/ bpow radix2 (-1022) <= rnd f / rnd m) ->
  (rnd i + quo f m = 0 \/ bpow radix2 (-1022) <= rnd i + quo f m) ->
  (1 + p2) * (1 + p3 * (1 + / 1000)) * (1 + u) * (1 + u) - 1 <= k * u -> 3 <= k ->
  Rabs (conv i f m - (i + f / m)) <= (i + f / m) * (k * u).
Proof.
  intros I F M (e1 & E1 & R1) (e2 & E2 & R2) (e3 & E3 & R3) P2 P3 N4 N5 K K3.
  assert (U := u_pos). assert (U' := u_small).
  assert (N4' : rnd f / rnd m = 0 \/ bpow radix2 (-1022) <= Rabs (rnd f / rnd m)).
  { destruct N4 as [->|N4]; [left; rewrite rnd_0; unfold Rdiv; ring|right].
    rewrite Rabs_pos_eq; [exact N4|]. eapply Rle_trans; [|exact N4]. left. apply bpow_gt_0. }
  assert (N5' : rnd i + quo f m = 0 \/ bpow radix2 (-1022) <= Rabs (rnd i + quo f m)).
  { destruct N5 as [N5|N5]; [now left|right]. rewrite Rabs_pos_eq; [exact N5|]. eapply Rle_trans; [|exact N5]. left. apply bpow_gt_0. }
  destruct (rnd_rel _ N4') as (e4 & E4 & R4). destruct (rnd_rel _ N5') as (e5 & E5 & R5).
  assert (NM : 1 + e3 <> 0) by (apply Rabs_le_inv in E3; lra).
  assert (EQ : conv i f m - (i + f / m) = i * ((1 + e1) * (1 + e5) - 1) + f / m * (((1 + e2) * / (1 + e3) * (1 + e4)) * (1 + e5) - 1)).
  { unfold conv. rewrite R5. unfold quo. rewrite R4, R1, R2, R3. field. split; [exact NM|lra]. }
  rewrite EQ. eapply Rle_trans; [apply Rabs_triang|]. rewrite !Rabs_mult. rewrite (Rabs_pos_eq i) by exact I.
  assert (FM : 0 <= f / m) by (apply Rmult_le_pos; [lra|left; apply Rinv_0_lt_compat; lra]).
  rewrite (Rabs_pos_eq (f / m)) by exact FM. rewrite (Rmult_plus_distr_r i (f / m) (k * u)). apply Rplus_le_compat; apply Rmult_le_compat_l; try assumption.
  - eapply Rle_trans; [apply mul1; [replace (1 + e1 - 1) with e1 by ring; exact E1|replace (1 + e5 - 1) with e5 by ring; exact E5]|]. nra.
  - eapply Rle_trans; [apply mul1; [apply mul1; [apply mul1|]|]|].
    + replace (1 + e2 - 1) with e2 by ring; exact E2.
    + apply (inv1 e3 p3); [lra|exact E3].
    + replace (1 + e4 - 1) with e4 by ring; exact E4.
    + replace (1 + e5 - 1) with e5 by ring; exact E5.
    + eapply Rle_trans; [|exact K]. right. ring.
Qed.

Lemma tiny_127 : bpow radix2 (-1022) <= / bpow radix2 127.
Proof. rewrite <- (bpow_opp radix2 127). apply bpow_le. discriminate. Qed.

(** the number of half-ulps allowed: 3 for 32 bits, 4 for 64, 5 for 128 *)
Lemma conv_close_int i f m p2 p3 k : (0 <= i)%Z -> (0 <= f < m)%Z -> (m <= 2 ^ 127)%Z ->
  within p2 (IZR f) -> within p3 (IZR m) -> 0 <= p2 <= u -> 0 <= p3 <= u ->
  (1 + p2) * (1 + p3 * (1 + / 1000)) * (1 + u) * (1 + u) - 1 <= k * u -> 3 <= k ->
  Rabs (conv (IZR i) (IZR f) (IZR m) - (IZR i + IZR f / IZR m)) <= (IZR i + IZR f / IZR m) * (k * u).
Proof.
  intros I F M WF WM P2 P3 K K3.
  assert (I' := IZR_le _ _ I). assert (F' := IZR_le _ _ (proj1 F)). assert (FM := IZR_lt _ _ (proj2 F)).
  assert (M1 : 1 <= IZR m) by (apply IZR_le; lia).
  assert (MB : rnd (IZR m) <= bpow radix2 127).
  { rewrite <- (rnd_fix (bpow radix2 127)).
    - apply rnd_le. apply Rle_trans with (Rabs (IZR m)); [apply RRle_abs|apply (int_big 127); lia].
    - apply generic_format_bpow. unfold SpecFloat.fexp, SpecFloat.emin. lia. }
  assert (M2 := rnd_ge1 _ M1).
  assert (N4 : f = 0%Z \/ / bpow radix2 127 <= rnd (IZR f) / rnd (IZR m)).
  { destruct (Z.eq_dec f 0) as [|NZ]; [now left|right]. assert (F1 : 1 <= IZR f) by (apply IZR_le; lia). apply rnd_ge1 in F1.
    unfold Rdiv. rewrite <- (Rmult_1_l (/ bpow radix2 127)). apply Rmult_le_compat; [lra|left; apply Rinv_0_lt_compat, bpow_gt_0|exact F1|].
    apply Rinv_le; [lra|exact MB]. }
  assert (Q0 : 0 <= quo (IZR f) (IZR m)).
  { unfold quo. rewrite <- rnd_0. apply rnd_le. apply Rmult_le_pos; [rewrite <- rnd_0; now apply rnd_le|left; apply Rinv_0_lt_compat; lra]. }
  apply (conv_close_pos _ _ _ p2 p3 k); try assumption; try lra.
  - apply within_u, int_normal.
  - destruct N4 as [->|N4]; [now left|right]. eapply Rle_trans; [apply tiny_127|exact N4].
  - destruct (Z.eq_dec i 0) as [->|NI].
    + rewrite rnd_0, Rplus_0_l. destruct N4 as [->|N4].
      * left. unfold quo. rewrite rnd_0. unfold Rdiv. rewrite Rmult_0_l. apply rnd_0.
      * right. eapply Rle_trans; [apply tiny_127|]. rewrite <- (rnd_fix (/ bpow radix2 127)).
        -- now apply rnd_le.
        -- rewrite <- (bpow_opp radix2 127). apply generic_format_bpow. unfold SpecFloat.fexp, SpecFloat.emin. lia.
    + right. assert (I1 : 1 <= IZR i) by (apply IZR_le; lia). apply rnd_ge1 in I1.
      apply Rle_trans with 1; [change 1 with (bpow radix2 0); apply bpow_le; discriminate|lra].
Qed.

(** roundings of the fraction and of the modulus that are exact *)
Lemma k128 : (1 + u) * (1 + u * (1 + / 1000)) * (1 + u) * (1 + u) - 1 <= 5 * u.
Proof. assert (U := u_pos). assert (U' := u_small). generalize u U U'. clear. intros u U U'. nra. Qed.
Lemma k64 : (1 + u) * (1 + 0 * (1 + / 1000)) * (1 + u) * (1 + u) - 1 <= 4 * u.
Proof. assert (U := u_pos). assert (U' := u_small). generalize u U U'. clear. intros u U U'. nra. Qed.
Lemma k32 : (1 + 0) * (1 + 0 * (1 + / 1000)) * (1 + u) * (1 + u) - 1 <= 3 * u.
Proof. assert (U := u_pos). assert (U' := u_small). generalize u U U'. clear. intros u U U'. nra. Qed.

(* ---- doubles as rationals ---- *)
Lemma dyadic_R m e : Q2R (dyadic m e) = IZR m * bpow radix2 e.
Proof.
  unfold dyadic. destruct (Z.leb_spec 0 e) as [H|H].
  - unfold inject_Z, Q2R. cbn [Qnum Qden]. rewrite Rinv_1, Rmult_1_r, mult_IZR. f_equal. now rewrite (IZR_Zpower radix2).
  - unfold Q2R. cbn [Qnum Qden]. f_equal. rewrite Z2Pos.id by (apply Z.pow_pos_nonneg; lia).
    rewrite (IZR_Zpower radix2) by lia. rewrite bpow_opp, Rinv_inv. reflexivity.
Qed.
Lemma worth_val f r : worth f r -> is_f64 f /\ exists q, f64_val f = Some q /\ Q2R q = r.
Proof.
  intros (b & -> & F & <-). split; [apply valid_binary_B2SF|]. destruct b as [s|s| |s m e B]; try discriminate F; cbn [B2SF f64_val].
  - exists 0%Q. split; [reflexivity|]. unfold Q2R. cbn. ring.
  - eexists. split; [reflexivity|]. rewrite dyadic_R. cbn [B2R]. unfold F2R. cbn [Fnum Fexp]. now destruct s.
Qed.
Lemma fixed_R p x : Q2R (fixed p x) = IZR x / IZR (10 ^ Z.of_N p).
Proof. unfold fixed, Q2R. cbn [Qnum Qden]. rewrite Z2Pos.id by (apply Z.pow_pos_nonneg; lia). reflexivity. Qed.
Lemma Qabs_R q : Q2R (Qabs.Qabs q) = Rabs (Q2R q).
Proof.
  apply Qabs.Qabs_case; intros H; apply Qle_Rle in H; replace (Q2R 0) with 0 in H by (unfold Q2R; cbn; ring).
  - now rewrite Rabs_pos_eq.
  - rewrite Q2R_opp. now rewrite Rabs_left1.
Qed.

Section Close.
  Variables (bits : Z) (p : N) (x : Z).
  Hypothesis bits_ok : (1 <= bits <= 128)%Z.
  Hypothesis m_ok : (10 ^ Z.of_N p < 2 ^ (bits - 1))%Z.
  Hypothesis x_ok : (- 2 ^ (bits - 1) <= x < 2 ^ (bits - 1))%Z.
  Let m := (10 ^ Z.of_N p)%Z.
  Let i := Z.quot x m.
  Let f := Z.rem x m.

  (** [k] units in 2^-53, with [p2], [p3] the errors of converting fraction and modulus *)
  Lemma conv_close k p2 p3 : (forall z, (Z.abs z < m)%Z -> within p2 (IZR z)) -> within p3 (IZR m) -> 0 <= p2 <= u -> 0 <= p3 <= u ->
    (1 + p2) * (1 + p3 * (1 + / 1000)) * (1 + u) * (1 + u) - 1 <= k * u -> 3 <= k ->
    Rabs (conv (IZR i) (IZR f) (IZR m) - IZR x / IZR m) <= Rabs (IZR x / IZR m) * (k * u).
  Proof.
    intros W2 W3 P2 P3 K K3. assert (M := m_pos p). fold m in M.
    assert (MB : (m <= 2 ^ 127)%Z) by (assert (T := two_127 bits (proj2 bits_ok)); fold m in m_ok; lia).
    assert (M1 : 1 <= IZR m) by (apply IZR_le; exact M).
    assert (XE : IZR x / IZR m = IZR i + IZR f / IZR m).
    { rewrite (x_eq p x) at 1. fold m i f. rewrite plus_IZR, mult_IZR. field. lra. }
    assert (G : forall j g, (0 <= j)%Z -> (0 <= g < m)%Z ->
      Rabs (conv (IZR j) (IZR g) (IZR m) - (IZR j + IZR g / IZR m)) <= (IZR j + IZR g / IZR m) * (k * u)).
    { intros j g J0 G0. apply (conv_close_int j g m p2 p3 k); try assumption. apply W2. lia. }
    rewrite XE. destruct (Z.le_ge_cases 0 x) as [S|S].
    - assert (I0 : (0 <= i)%Z) by (apply Z.quot_pos; lia). assert (F0 : (0 <= f < m)%Z) by (apply Z.rem_bound_pos; lia).
      rewrite (Rabs_pos_eq (_ + _)); [now apply G|].
      apply Rplus_le_le_0_compat; [now apply IZR_le|]. apply Rmult_le_pos; [now apply IZR_le|left; apply Rinv_0_lt_compat; lra].
    - assert (IE : (i = - Z.quot (- x) m)%Z) by (unfold i; rewrite Z.quot_opp_l by lia; lia).
      assert (FE : (f = - Z.rem (- x) m)%Z) by (unfold f; rewrite Z.rem_opp_l by lia; lia).
      assert (I0 : (0 <= Z.quot (- x) m)%Z) by (apply Z.quot_pos; lia). assert (F0 : (0 <= Z.rem (- x) m < m)%Z) by (apply Z.rem_bound_pos; lia).
      rewrite IE, FE, !opp_IZR, conv_opp.
      replace (- IZR (- x ÷ m) + - IZR (Z.rem (- x) m) / IZR m) with (- (IZR (- x ÷ m) + IZR (Z.rem (- x) m) / IZR m)) by (unfold Rdiv; ring).
      rewrite Rabs_Ropp. rewrite (Rabs_pos_eq (_ + _)).
      + rewrite <- Rabs_Ropp. replace (- (- conv _ _ _ - - _)) with (conv (IZR (- x ÷ m)) (IZR (Z.rem (- x) m)) (IZR m) - (IZR (- x ÷ m) + IZR (Z.rem (- x) m) / IZR m)) by ring. now apply G.
      + apply Rplus_le_le_0_compat; [now apply IZR_le|]. apply Rmult_le_pos; [now apply IZR_le|left; apply Rinv_0_lt_compat; lra].
  Qed.
End Close.

Lemma kR k : Q2R (k # (2 ^ 53)) = IZR k * u.
Proof. unfold Q2R, u. reflexivity. Qed.
Lemma ten_exact p : (p <= 22)%N -> generic_format radix2 fx (IZR (10 ^ Z.of_N p)).
Proof.
  intros H. replace (10 ^ Z.of_N p)%Z with (5 ^ Z.of_N p * 2 ^ Z.of_N p)%Z by (rewrite <- Z.pow_mul_l; reflexivity).
  rewrite mult_IZR, (IZR_Zpower radix2) by lia. apply format_dyadic; [|lia].
  rewrite Z.abs_eq by (apply Z.pow_nonneg; lia). apply Z.le_trans with (5 ^ 22)%Z; [apply Z.pow_le_mono_r; [reflexivity|clear - H; lia]|]. apply Z.leb_le. vm_compute. reflexivity.
Qed.
Lemma p_of_bits b p : (10 ^ Z.of_N p < 2 ^ (b - 1))%Z -> forall d, (2 ^ (b - 1) <= 10 ^ Z.of_N (d + 1))%Z -> (p <= d)%N.
Proof.
  intros H d D. destruct (N.le_gt_cases p d) as [|G]; [assumption|exfalso].
  assert (10 ^ Z.of_N (d + 1) <= 10 ^ Z.of_N p)%Z by (apply Z.pow_le_mono_r; lia). lia.
Qed.

Lemma close bits p x k : (bits = 32 /\ k = 3 \/ bits = 64 /\ k = 4 \/ bits = 128 /\ k = 5)%Z ->
  (p < 2 ^ 32)%N -> (10 ^ Z.of_N p < 2 ^ (bits - 1))%Z -> (- 2 ^ (bits - 1) <= x < 2 ^ (bits - 1))%Z ->
  exists f q, fp_to_f64 bits p x = Ok f /\ is_f64 f /\ f64_val f = Some q /\
    (Qabs.Qabs (q - fixed p x) <= Qabs.Qabs (fixed p x) * (k # 2 ^ 53))%Q.
Proof.
  intros BK P M X. assert (B : (1 <= bits <= 128)%Z) by lia.
  destruct (fp_worth bits p x B P M X) as (v & V & W). destruct (worth_val _ _ W) as (V' & q & Q & QR).
  exists v, q. split; [exact V|]. split; [exact V'|]. split; [exact Q|].
  apply Rle_Qle. rewrite Q2R_mult, !Qabs_R, Q2R_minus, kR, fixed_R, QR.
  assert (U := u_pos).
  destruct BK as [[-> ->]|[[-> ->]|[-> ->]]].
  - apply (conv_close 32 p x B M X 3 0 0); try lra; [| |exact k32].
    + intros z Z. apply within_0, format_int. assert (10 ^ Z.of_N p < 2 ^ 31)%Z by exact M. lia.
    + apply within_0, ten_exact. apply N.le_trans with 9%N; [|discriminate]. apply (p_of_bits 32); [exact M|apply Z.leb_le; vm_compute; reflexivity].
  - apply (conv_close 64 p x B M X 4 u 0); try lra; [| |exact k64].
    + intros z Z. apply within_u, int_normal.
    + apply within_0, ten_exact. apply N.le_trans with 18%N; [|discriminate]. apply (p_of_bits 64); [exact M|apply Z.leb_le; vm_compute; reflexivity].
  - apply (conv_close 128 p x B M X 5 u u); try lra; [| |exact k128].
    + intros z Z. apply within_u, int_normal.
    + apply within_u, int_normal.
Qed.
