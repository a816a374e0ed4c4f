(** When a LowCardinality column comes up short of rows. *)
From Verif Require Import Base Io IoProofs Types Ser Deser ColumnSpec ColumnProofs ColumnRoundtrip LowCardProofs WireProofs DecodeProofs DecodeProofs2
  WireSpec WireDecode.

(** Somewhere in [inp] there are eight bytes, a dictionary header, whose bits 8 (shared
    dictionary) and 9 (own keys) are both clear. *)
Definition header_without_keys (inp : list N) : Prop :=
  exists before flags after, inp = before ++ flags ++ after /\ lenN flags = 8 /\
    N.testbit (number flags) 8 = false /\ N.testbit (number flags) 9 = false.

Lemma has_bit_testbit f k : has_bit f (N.shiftl 1 k) = N.testbit f k.
Proof.
  unfold has_bit. rewrite N.shiftl_1_l. destruct (N.testbit f k) eqn:E.
  - apply negb_true_iff, N.eqb_neq. intros H. assert (T : N.testbit (N.land f (2 ^ k)) k = false) by (rewrite H; apply N.bits_0).
    rewrite N.land_spec, E, N.pow2_bits_true in T. discriminate.
  - apply negb_false_iff, N.eqb_eq. apply N.bits_inj. intros i. rewrite N.land_spec, N.bits_0.
    destruct (N.eq_dec k i) as [<-|Hk]; [now rewrite E|]. rewrite N.pow2_bits_false by exact Hk. apply andb_false_r.
Qed.

Lemma header_flags inner st inp st1 rest : lc_header inner st inp = Ok (st1, rest) ->
  needs_global st1 || has_additional st1 = true \/ header_without_keys inp.
Proof.
  unfold lc_header. unfold rdbind at 1. intros H. inv_bind H. destruct a as [flags i1].
  unfold read_le, rdbind in E. inv_bind E. destruct a as [fb i1']. apply read_exact_ok in E0 as [-> L]. injection E as <- <-.
  destruct (index_width (le_val fb)); [|discriminate].
  unfold rdbind at 1 in H. inv_bind H. destruct a as [gd i2]. unfold rdbind at 1 in H. inv_bind H. destruct a as [ad i3].
  unfold rdbind at 1 in H. inv_bind H. destruct a as [pend i4]. injection H as <- <-. cbn [needs_global has_additional].
  unfold NEED_GLOBAL_DICTIONARY_BIT, HAS_ADDITIONAL_KEYS_BIT. rewrite !has_bit_testbit.
  destruct (N.testbit (le_val fb) 8) eqn:B8; [now left|]. destruct (N.testbit (le_val fb) 9) eqn:B9; [now left|]. right.
  exists [], fb, i1'. rewrite number_le_val. repeat split; assumption.
Qed.

Lemma iter_flags inner nullable limit st inp st' reading vals rest : (forall n, local (inner n)) ->
  num_pending st = 0 \/ needs_global st || has_additional st = true ->
  lc_iter inner nullable limit st inp = Ok ((st', reading, vals), rest) ->
  needs_global st' || has_additional st' = true \/ header_without_keys inp.
Proof.
  intros HL Hs H. unfold lc_iter in H. unfold rdbind in H. inv_bind H. destruct a as [st1 i1]. cbn beta in H. inv_bind H. destruct a as [es i2].
  cbn beta in H. inv_bind H. injection H as <- <- <- <-. cbn [needs_global has_additional].
  destruct (N.eqb_spec (num_pending st) 0) as [Hp|Hp]; [now apply (header_flags inner st inp st1 i1)|].
  injection E as <- <-. left. now destruct Hs.
Qed.

Lemma loop_rows inner nullable : (forall n, local (inner n)) -> forall f limit st out inp v rest,
  num_pending st = 0 \/ needs_global st || has_additional st = true ->
  lc_loop f inner nullable limit st out inp = Ok (v, rest) -> lenN v = lenN out + limit \/ header_without_keys inp.
Proof.
  intros HL. induction f as [|f IH]; intros limit st out inp v rest Hs H.
  - cbn [lc_loop] in H. destruct (N.eqb_spec limit 0); [|discriminate]. injection H as <- <-. left. lia.
  - rewrite lc_loop_iter in H. destruct (N.eqb_spec limit 0); [injection H as <- <-; left; lia|].
    inv_bind H. destruct a as [[[st1 reading] vals] i1].
    destruct (iter_flags _ _ _ _ _ _ _ _ _ HL Hs E) as [Hf|Hf]; [|now right].
    destruct (local_iter inner nullable limit st HL _ _ _ E) as (used & -> & _).
    apply lc_iter_vals in E as (_ & B & C). specialize (C Hf).
    destruct (IH _ _ _ _ _ _ (or_intror Hf) H) as [R|(a & fl & b & -> & R)].
    + left. rewrite R, lenN_app. unfold lenN in *. lia.
    + right. exists (used ++ a), fl, b. split; [now rewrite app_assoc|exact R].
Qed.

Theorem short_only_without_keys t rows inp vs rest : deser t rows inp = Ok (vs, rest) ->
  lenN vs = rows \/ (lenN vs < rows /\ not_dict t = false /\ header_without_keys inp).
Proof.
  intros H. pose proof (deser_at_most _ _ _ _ _ H) as HM. destruct (not_dict t) eqn:Hd.
  - left. apply (deser_rows t Hd) in H. unfold lenN. lia.
  - destruct (N.eq_dec (lenN vs) rows) as [E|E]; [now left|]. right. split; [lia|]. split; [reflexivity|].
    revert rows inp vs rest H HM E. induction t as [t Hl|t IH IHs|t IH|ts IH|t IH|k v IHk IHv] using ty_ind_strip; intros rows inp vs rest H HM E;
      try discriminate Hd.
    + destruct t; discriminate.
    + rewrite deser_lc_eq in H. apply check_ok in H. unfold deser_low_card in H.
      apply loop_rows in H; [|apply deser_local|left; reflexivity]. destruct H as [R|R]; [|exact R].
      exfalso. apply E. exact R.
    + cbn [deser] in H. apply check_ok in H. unfold rdbind in H. inv_bind H. destruct a as [m i1]. inv_bind H.
      destruct a as [out i2]. cbn beta in H. inv_bind H. injection H as <- <-.
      apply read_exact_ok in E0 as [-> _]. apply apply_mask_length in E2.
      pose proof (deser_at_most _ _ _ _ _ E1) as HM'.
      destruct (IH Hd _ _ _ _ E1 HM') as (b & f & c & -> & R); [unfold lenN in *; lia|].
      exists (m ++ b), f, c. split; [now rewrite app_assoc|exact R].
Qed.
