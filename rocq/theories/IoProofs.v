(** Proofs about Io.v. *)
From Verif Require Import Base Io.
Ltac Zify.zify_post_hook ::= Z.div_mod_to_equations.

Lemma land128_small b : b < 128 -> N.land b 128 = 0.
Proof.
  intros H. change 128 with (N.shiftl 1 7). apply N.bits_inj_0. intros i.
  rewrite N.land_spec. destruct (N.ltb_spec i 7) as [Hi|Hi].
  - rewrite N.shiftl_spec_low by assumption. apply andb_false_r.
  - rewrite <- (N.mod_small b (2 ^ 7)) by assumption. now rewrite N.mod_pow2_bits_high.
Qed.

Lemma lor128 b : b < 128 -> N.lor b 128 = b + 128.
Proof. intros H. change 128 with (N.shiftl 1 7) at 1. rewrite lor_shiftl_add by assumption. lia. Qed.

Lemma land128_big b : b < 128 -> N.land (b + 128) 128 = 128.
Proof.
  intros H. rewrite <- lor128 by assumption. rewrite N.land_lor_distr_l, land128_small by assumption.
  reflexivity.
Qed.

Lemma land127_big b : b < 128 -> N.land (b + 128) 127 = b.
Proof. intros H. rewrite land127. lia. Qed.

Lemma shiftr7 v : N.shiftr v 7 = v / 128.
Proof. rewrite N.shiftr_div_pow2. reflexivity. Qed.

Lemma pow7 i : 2 ^ (7 * (i + 1)) = 2 ^ (7 * i) * 128.
Proof. rewrite N.mul_add_distr_l, N.pow_add_r. reflexivity. Qed.

Lemma chunk_eq out v P : out + v mod 128 * P + v / 128 * (P * 128) = out + v * P.
Proof.
  pose proof (N.div_mod v 128 ltac:(discriminate)) as E.
  rewrite E at 3. ring.
Qed.
Lemma chunk_lt out r P : out < P -> r < 128 -> out + r * P < P * 128.
Proof. intros. assert (r * P <= 127 * P) by (apply N.mul_le_mono_r; lia). lia. Qed.

(** What the reader sees of what the writer wrote, from any position [i], with any
    continuation: the integer modulo 128^k, k being the number of octets allowed. *)
Lemma read_write_var_go k : forall i out v rest,
  out < 2 ^ (7 * i) ->
  read_var_uint_go k i out (write_var_uint_go k v ++ rest)
  = Ok (out + (v mod 128 ^ N.of_nat k) * 2 ^ (7 * i), rest).
Proof.
  induction k as [|k IH]; intros i out v rest Hout.
  { cbn [write_var_uint_go read_var_uint_go app]. change (128 ^ N.of_nat 0) with 1.
    rewrite N.mod_1_r, N.mul_0_l, N.add_0_r. reflexivity. }
  cbn [write_var_uint_go read_var_uint_go app].
  rewrite land127, shiftr7.
  assert (Hm : v mod 128 < 128) by (apply N.mod_lt; lia).
  rewrite Nat2N.inj_succ, N.pow_succ_r'.
  assert (P0 : 128 ^ N.of_nat k <> 0) by (apply N.pow_nonzero; lia).
  destruct (N.ltb_spec 127 v) as [Hbig|Hsmall].
  - rewrite lor128 by assumption.
    rewrite land127_big, land128_big by assumption.
    rewrite lor_shiftl_add by assumption.
    destruct (N.eqb_spec 128 0) as [C|_]; [discriminate|].
    destruct (N.eqb_spec (v / 128) 0) as [Z0|_]; [lia|].
    rewrite IH.
    + f_equal. f_equal. rewrite pow7. rewrite (N.mod_mul_r v 128) by (assumption || lia). ring.
    + rewrite pow7. now apply chunk_lt.
  - replace (v / 128) with 0 by lia. cbn [N.eqb].
    replace (v mod 128) with v by lia.
    rewrite land127, (N.mod_small v 128), land128_small by lia. cbn [N.eqb].
    rewrite lor_shiftl_add by assumption.
    rewrite (N.mod_small v (128 * _)); [reflexivity|]. nia.
Qed.

Lemma read_write_var_uint_all v rest :
  read_var_uint (write_var_uint v ++ rest) = Ok (v mod 2 ^ 63, rest).
Proof.
  unfold read_var_uint, write_var_uint. rewrite read_write_var_go by lia.
  rewrite N.mul_0_r, N.pow_0_r, N.mul_1_r. reflexivity.
Qed.

Lemma read_write_var_uint v rest :
  v < 2 ^ 63 -> read_var_uint (write_var_uint v ++ rest) = Ok (v, rest).
Proof. intros H. rewrite read_write_var_uint_all, N.mod_small by assumption. reflexivity. Qed.

Lemma write_var_uint_length v : (1 <= length (write_var_uint v) <= 9)%nat.
Proof.
  unfold write_var_uint.
  assert (H : forall k v, (length (write_var_uint_go k v) <= k)%nat).
  { induction k as [|k IH]; intros w; cbn [write_var_uint_go length]; [lia|].
    destruct (_ =? 0); cbn [length]; [lia|]. specialize (IH (N.shiftr w 7)). lia. }
  split; [|apply H]. cbn [write_var_uint_go length]. lia.
Qed.

Lemma write_var_uint_bytes v : bytes_ok (write_var_uint v).
Proof.
  unfold write_var_uint. generalize 9%nat as k. intros k. revert v.
  induction k as [|k IH]; intros v; cbn [write_var_uint_go]; constructor.
  - assert (Hm : N.land v 127 < 128) by (rewrite land127; apply N.mod_lt; lia).
    unfold byte_ok. destruct (_ <? _); [rewrite lor128 by assumption|]; lia.
  - destruct (_ =? 0); [constructor|apply IH].
Qed.

Lemma write_var_uint_prefix_free v w r1 r2 :
  v < 2 ^ 63 -> w < 2 ^ 63 -> write_var_uint v ++ r1 = write_var_uint w ++ r2 -> v = w /\ r1 = r2.
Proof.
  intros Hv Hw E. pose proof (read_write_var_uint v r1 Hv) as A.
  rewrite E, read_write_var_uint in A by assumption. injection A as -> ->. now split.
Qed.

Lemma read_write_string s rest :
  lenN s <= MAX_STRING_SIZE -> read_string (write_string s ++ rest) = Ok (s, rest).
Proof.
  intros H. unfold read_string, write_string, rdbind. rewrite <- app_assoc.
  unfold MAX_STRING_SIZE in *. rewrite read_write_var_uint by lia. cbn [rbind].
  destruct (N.ltb_spec (2 ^ 30) (lenN s)) as [L|_]; [lia|].
  destruct (N.eqb_spec (lenN s) 0) as [E|E].
  - apply lenN_0 in E as ->. reflexivity.
  - apply read_exact_app.
Qed.

(** Any declared length above the limit is refused before the payload is looked at. *)
Lemma read_string_too_long n rest :
  MAX_STRING_SIZE < n -> n < 2 ^ 63 -> read_string (write_var_uint n ++ rest) = Err EProtocol.
Proof.
  intros H H2. unfold read_string, rdbind. rewrite read_write_var_uint by assumption. cbn [rbind].
  destruct (N.ltb_spec MAX_STRING_SIZE n) as [_|L]; [reflexivity|lia].
Qed.

(** A truncated payload is an error, never a shorter string. *)
Lemma read_string_truncated s (k : nat) :
  lenN s <= MAX_STRING_SIZE -> (k < length s)%nat ->
  read_string (write_var_uint (lenN s) ++ firstn k s) = Err EIo.
Proof.
  intros H Hk. unfold read_string, rdbind. unfold MAX_STRING_SIZE in *.
  rewrite read_write_var_uint by lia. cbn [rbind].
  destruct (N.ltb_spec (2 ^ 30) (lenN s)) as [L|_]; [lia|].
  destruct (N.eqb_spec (lenN s) 0) as [E|E]; [unfold lenN in E; lia|].
  apply read_exact_short. unfold lenN. rewrite firstn_length. lia.
Qed.

(** Reading consumes a prefix and is insensitive to what follows. *)
Lemma read_var_go_local k : forall i out inp v rest,
  read_var_uint_go k i out inp = Ok (v, rest) ->
  exists used, inp = used ++ rest /\ (length used <= k)%nat /\
    forall ext, read_var_uint_go k i out (used ++ ext) = Ok (v, ext).
Proof.
  induction k as [|k IH]; intros i out inp v rest H; cbn [read_var_uint_go] in H.
  - injection H as <- <-. exists []. split; [reflexivity|]. split; [cbn; lia|]. reflexivity.
  - destruct inp as [|b t]; [discriminate|].
    destruct (N.land b 128 =? 0) eqn:E.
    + injection H as <- <-. exists [b]. split; [reflexivity|]. split; [cbn; lia|].
      intros ext. cbn [app read_var_uint_go]. now rewrite E.
    + apply IH in H as (used & -> & L & X). exists (b :: used). split; [reflexivity|].
      split; [cbn; lia|]. intros ext. cbn [app read_var_uint_go]. rewrite E. apply X.
Qed.

Lemma read_var_go_nopanic k : forall i out inp, read_var_uint_go k i out inp <> Panic.
Proof.
  induction k as [|k IH]; intros i out inp; cbn [read_var_uint_go]; [discriminate|].
  destruct inp; [discriminate|]. destruct (_ =? 0); [discriminate|apply IH].
Qed.

Lemma read_var_uint_bound inp v rest : read_var_uint inp = Ok (v, rest) -> v < 2 ^ 63.
Proof.
  unfold read_var_uint.
  assert (G : forall k i out inp v rest, out < 2 ^ (7 * i) ->
     read_var_uint_go k i out inp = Ok (v, rest) -> v < 2 ^ (7 * (i + N.of_nat k))).
  { clear. induction k as [|k IH]; intros i out inp v rest Ho H; cbn [read_var_uint_go] in H.
    - injection H as <- <-. now replace (i + N.of_nat 0) with i by lia.
    - destruct inp as [|b t]; [discriminate|].
      rewrite land127, lor_shiftl_add in H by assumption.
      assert (Hb : b mod 128 < 128) by (apply N.mod_lt; lia).
      assert (Ho' : out + b mod 128 * 2 ^ (7 * i) < 2 ^ (7 * (i + 1))) by (rewrite pow7; now apply chunk_lt).
      destruct (_ =? 0).
      + injection H as <- <-. eapply N.lt_le_trans; [exact Ho'|].
        apply N.pow_le_mono_r; lia.
      + apply IH in H; [|assumption]. now replace (i + N.of_nat (S k)) with (i + 1 + N.of_nat k) by lia. }
  intros H. apply G in H; [exact H|lia].
Qed.

Lemma varint_top_bit : exists v, v < 2 ^ 64 /\ forall rest,
  read_var_uint (write_var_uint v ++ rest) = Ok (0, rest) /\ v <> 0.
Proof.
  exists (2 ^ 63). split; [reflexivity|]. intros rest. split; [|discriminate].
  rewrite read_write_var_uint_all. reflexivity.
Qed.
