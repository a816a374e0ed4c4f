(** Row counts, limits and panics of the column decoder; validation and defaults. *)
From Verif Require Import Base Io IoProofs Types Ser Deser ColumnSpec ColumnProofs ColumnRoundtrip LowCardProofs WireProofs DecodeProofs.

(* ---------- row counts ---------- *)
Definition yields {A} (k : nat) (r : rd (list A)) : Prop := forall inp v rest, r inp = Ok (v, rest) -> length v = k.

Lemma read_n_length {A} n (r : rd A) : yields n (read_n n r).
Proof.
  induction n as [|n IH]; intros inp v rest H; cbn [read_n] in H.
  - injection H as <- <-. reflexivity.
  - unfold rdbind in H. inv_bind H. destruct a as [x i]. cbn beta in H. inv_bind H. destruct a as [xs j].
    injection H as <- <-. cbn [length]. f_equal. eapply IH; eauto.
Qed.
Lemma split_offsets_length {A} p offs (items : list A) out : split_offsets p offs items = Ok out -> length out = length offs.
Proof.
  revert p items out; induction offs as [|o t IH]; intros p items out H; cbn [split_offsets] in H.
  - injection H as <-. reflexivity.
  - destruct (_ <? _); [discriminate|]. inv_bind H. injection H as <-. cbn [length]. f_equal. eapply IH; eauto.
Qed.
Lemma check_ok {A} n (r : rd A) inp v : check_rows n r inp = Ok v -> r inp = Ok v.
Proof. unfold check_rows. destruct (_ <? _); [discriminate|auto]. Qed.
Lemma array_yields {A} inner (im : value -> res A) mk rows : yields (N.to_nat rows) (deser_array_generic inner im mk rows).
Proof.
  intros inp v rest H. unfold deser_array_generic in H. destruct (N.eqb_spec rows 0) as [->|Hr].
  - injection H as <- <-. reflexivity.
  - unfold rdbind in H. inv_bind H. destruct a as [offs i1]. inv_bind H. destruct a as [items i2].
    inv_bind H. inv_bind H. injection H as <- <-. rewrite map_length. apply split_offsets_length in E2 as ->.
    now apply read_n_length in E.
Qed.
Lemma float_yields n : yields (N.to_nat n) (deser_float64 n).
Proof. intros inp v rest H. apply check_ok in H. now apply read_n_length in H. Qed.
Lemma point_yields n : yields (N.to_nat n) (deser_point n).
Proof.
  intros inp v rest H. apply check_ok in H. unfold rdbind in H. inv_bind H. destruct a as [xs i1]. inv_bind H. destruct a as [ys i2].
  inv_bind H. inv_bind H. injection H as <- <-. rewrite map_length. etransitivity; [apply combine_length|].
  apply mapM_ok_length in E1, E2. rewrite E1, E2. apply float_yields in E, E0. lia.
Qed.
Lemma apply_mask_length m out v : apply_mask m out = Ok v -> length v = length out.
Proof.
  revert out v; induction m as [|b m IH]; intros [|x out] v H; cbn [apply_mask] in H.
  - injection H as <-. reflexivity.
  - injection H as <-. reflexivity.
  - destruct (forallb _ _); [|discriminate]. injection H as <-. reflexivity.
  - inv_bind H. injection H as <-. cbn [length]. f_equal. now apply IH.
Qed.
Lemma split_map_length p offs ks vs out : split_map p offs ks vs = Ok out -> length out = length offs.
Proof.
  revert p ks vs out; induction offs as [|o t IH]; intros p ks vs out H; cbn [split_map] in H.
  - injection H as <-. reflexivity.
  - destruct (_ || _); [discriminate|]. inv_bind H. injection H as <-. cbn [length]. f_equal. eapply IH; eauto.
Qed.
Lemma push_column_length acc col out : push_column acc col = Ok out -> length out = length acc.
Proof.
  revert col out; induction acc as [|a acc IH]; intros [|c col] out H; cbn [push_column] in H; try discriminate H; try (injection H as <-; reflexivity).
  inv_bind H. injection H as <-. cbn [length]. f_equal. eapply IH; eauto.
Qed.
Lemma cols_yields rows ts : forall acc, yields (length acc) (deser_cols rows ts acc).
Proof.
  induction ts as [|t ts IH]; intros acc inp v rest H; cbn [deser_cols] in H.
  - injection H as <- <-. reflexivity.
  - fold (deser_cols rows) in H. unfold rdbind in H. inv_bind H. destruct a as [col i1]. cbn beta in H. inv_bind H.
    apply push_column_length in E0. rewrite <- E0. eapply IH; eauto.
Qed.

(** Types whose own column is not dictionary-encoded. *)
Fixpoint not_dict (t : ty) : bool :=
  match t with TLowCard _ => false | TNullable x => not_dict x | _ => true end.

Lemma deser_rows t : not_dict t = true -> forall rows, yields (N.to_nat rows) (deser t rows).
Proof.
  induction t as [t Hl|t IH IHs|t IH|ts IH|t IH|k v IHk IHv] using ty_ind_strip; intros Hn rows inp vs rest H.
  - destruct t; try discriminate Hl; cbn [deser] in H; apply check_ok in H;
      try (now apply read_n_length in H).
    + now apply point_yields in H.
    + apply check_ok in H. now apply array_yields in H.
    + apply check_ok in H. now apply array_yields in H.
    + apply check_ok in H. now apply array_yields in H.
  - discriminate.
  - cbn [deser] in H. apply check_ok in H. now apply array_yields in H.
  - rewrite deser_tuple_eq in H. apply check_ok in H. unfold rdbind in H. inv_bind H. destruct a as [tu i].
    injection H as <- <-. apply cols_yields in E. rewrite map_length, E. apply repeat_length.
  - cbn [deser] in H. apply check_ok in H. unfold rdbind in H. inv_bind H. destruct a as [m i1]. inv_bind H.
    destruct a as [out i2]. cbn beta in H. inv_bind H. injection H as <- <-.
    apply apply_mask_length in E1 as ->. eapply IH; eauto.
  - cbn [deser] in H. apply check_ok in H. destruct (N.eqb_spec rows 0) as [->|Hr].
    { injection H as <- <-. reflexivity. }
    unfold rdbind in H. inv_bind H. destruct a as [offs i1]. inv_bind H. destruct a as [ks i2]. cbn beta in H.
    destruct (negb _); [discriminate|]. inv_bind H. destruct a as [ws i3]. cbn beta in H.
    destruct (negb _); [discriminate|]. inv_bind H. injection H as <- <-. apply split_map_length in E2 as ->.
    now apply read_n_length in E.
Qed.

Lemma lc_lookup_one g h n gd ad e v : lc_lookup g h n gd ad e = Ok v -> (length v <= 1)%nat /\ (g || h = true -> length v = 1%nat).
Proof.
  unfold lc_lookup, get_or_illegal. destruct h, g; destruct ad as [ad|], gd as [gd|]; try discriminate;
    repeat match goal with |- context [if ?b then _ else _] => destruct b end;
    try (match goal with |- context [nthN ?l ?i] => destruct (nthN l i) end); cbn [rbind]; intros H;
    try discriminate H; injection H as <-; cbn; split; try lia; discriminate.
Qed.

Lemma lc_vals_length g h n gd ad es vals : mapM (lc_lookup g h n gd ad) es = Ok vals ->
  (length (concat vals) <= length es)%nat /\ (g || h = true -> length (concat vals) = length es).
Proof.
  revert vals; induction es as [|e es IH]; intros vals H; cbn [mapM] in H.
  - injection H as <-. cbn. lia.
  - inv_bind H. inv_bind H. injection H as <-. cbn [concat length]. rewrite app_length.
    apply lc_lookup_one in E as [A B]. destruct (IH _ E0) as [C D]. split; [lia|]. intros Hg. rewrite B, D by assumption. reflexivity.
Qed.

Lemma lc_iter_vals inner nullable limit st inp st' reading vals rest :
  lc_iter inner nullable limit st inp = Ok ((st', reading, vals), rest) ->
  (length (concat vals) <= N.to_nat reading)%nat /\ reading <= limit /\
  (needs_global st' || has_additional st' = true -> length (concat vals) = N.to_nat reading).
Proof.
  unfold lc_iter. intros H. unfold rdbind in H. inv_bind H. destruct a as [st1 i1]. cbn beta in H. inv_bind H. destruct a as [es i2].
  cbn beta in H. inv_bind H. injection H as <- <- <- <-.
  apply check_ok, read_n_length in E0. apply lc_vals_length in E1 as [A B]. cbn [needs_global has_additional]. rewrite <- E0. repeat split; try assumption. lia.
Qed.

Lemma lc_loop_at_most inner nullable : forall f limit st out inp v rest,
  lc_loop f inner nullable limit st out inp = Ok (v, rest) -> lenN v <= lenN out + limit.
Proof.
  induction f as [|f IH]; intros limit st out inp v rest H.
  - cbn [lc_loop] in H. destruct (limit =? 0); [|discriminate]. injection H as <- <-. lia.
  - rewrite lc_loop_iter in H. destruct (limit =? 0); [injection H as <- <-; lia|].
    inv_bind H. destruct a as [[[st1 reading] vals] i1]. apply lc_iter_vals in E as (A & B & _).
    apply IH in H. rewrite lenN_app in H. unfold lenN in *. lia.
Qed.

Lemma deser_at_most t : forall rows inp v rest, deser t rows inp = Ok (v, rest) -> lenN v <= rows.
Proof.
  induction t as [t Hl|t IH IHs|t IH|ts IH|t IH|k v IHk IHv] using ty_ind_strip; intros rows inp vs rest H;
    try (apply (deser_rows _) in H; [unfold lenN; lia|reflexivity]).
  - apply (deser_rows _) in H; [unfold lenN; lia|]. destruct t; try discriminate Hl; reflexivity.
  - rewrite deser_lc_eq in H. apply check_ok in H. apply lc_loop_at_most in H. rewrite lenN_nil in H. lia.
  - cbn [deser] in H. apply check_ok in H. unfold rdbind in H. inv_bind H. destruct a as [m i1]. inv_bind H.
    destruct a as [out i2]. cbn beta in H. inv_bind H. injection H as <- <-.
    apply apply_mask_length in E1. apply IH in E0. unfold lenN in *. lia.
Qed.

(* ---------- limits ---------- *)
Lemma too_many_rows t rows inp : 2 ^ 30 < rows -> deser t rows inp = Err EProtocol.
Proof.
  intros H. assert (C : forall A (r : rd A), check_rows rows r inp = Err EProtocol).
  { intros A r. unfold check_rows, MAX_STRING_SIZE. destruct (N.ltb_spec (2 ^ 30) rows); [reflexivity|lia]. }
  destruct t; apply C.
Qed.

Lemma too_many_elements t offs rest :
  offs <> [] -> lenN offs <= 2 ^ 30 -> Forall (fun o => o < 2 ^ 64) offs -> 2 ^ 30 < last offs 0 ->
  deser (TArray t) (lenN offs) (u64s offs ++ rest) = Err EProtocol.
Proof.
  intros Hne Hl Hf Hlast. cbn [deser]. rewrite check_rows_ok by exact Hl. unfold deser_array_generic.
  rewrite lenN_nonzero by assumption. unfold rdbind. unfold lenN at 1. rewrite Nat2N.id, read_u64s by assumption.
  cbn [rbind]. rewrite too_many_rows by assumption. reflexivity.
Qed.
Lemma too_many_entries k v offs rest :
  offs <> [] -> lenN offs <= 2 ^ 30 -> Forall (fun o => o < 2 ^ 64) offs -> 2 ^ 30 < last offs 0 ->
  deser (TMap k v) (lenN offs) (u64s offs ++ rest) = Err EProtocol.
Proof.
  intros Hne Hl Hf Hlast. cbn [deser]. rewrite check_rows_ok by exact Hl.
  rewrite lenN_nonzero by assumption. unfold rdbind. unfold lenN at 1. rewrite Nat2N.id, read_u64s by assumption.
  cbn [rbind]. rewrite too_many_rows by assumption. reflexivity.
Qed.
Lemma too_many_keys t rows flags n rest :
  0 < rows <= 2 ^ 30 -> flags < 2 ^ 64 -> n < 2 ^ 64 -> 2 ^ 30 < n -> flags mod 256 < 4 ->
  has_bit flags HAS_ADDITIONAL_KEYS_BIT || has_bit flags NEED_GLOBAL_DICTIONARY_BIT = true ->
  deser (TLowCard t) rows (le_bytes 8 flags ++ le_bytes 8 n ++ rest) = Err EProtocol.
Proof.
  intros Hr Hf Hn Hbig Hw Hb. rewrite deser_lc_eq, check_rows_ok by (unfold within; lia).
  unfold deser_low_card. remember (length _) as fuel. clear Heqfuel. cbn [lc_loop].
  destruct (N.eqb_spec rows 0); [lia|]. rewrite lc_init_pending. change (0 =? 0) with true. cbn iota.
  unfold lc_header, rdbind. rewrite read_le_app by (rewrite pow256_2; exact Hf). cbn [rbind].
  assert (Hiw : exists w, index_width flags = Some w).
  { unfold index_width. rewrite land255. unfold TUINT8, TUINT16, TUINT32, TUINT64.
    destruct (N.eqb_spec (flags mod 256) 0); [eauto|]. destruct (N.eqb_spec (flags mod 256) 1); [eauto|].
    destruct (N.eqb_spec (flags mod 256) 2); [eauto|]. destruct (N.eqb_spec (flags mod 256) 3); [eauto|lia]. }
  destruct Hiw as [w ->]. cbn [gdict lc_init orb]. rewrite andb_true_r.
  assert (Hread : forall r, read_le 8 (le_bytes 8 n ++ r) = Ok (n, r)) by (intros; apply read_le_app; rewrite pow256_2; exact Hn).
  destruct (has_bit flags NEED_GLOBAL_DICTIONARY_BIT).
  - rewrite Hread. cbn [rbind]. rewrite too_many_rows by assumption. reflexivity.
  - unfold rret at 1. cbn [rbind]. rewrite orb_false_r in Hb. rewrite Hb, Hread. cbn [rbind].
    rewrite too_many_rows by assumption. reflexivity.
Qed.

(* ---------- panics ---------- *)
Definition no_panic {A} (r : rd A) : Prop := forall inp, r inp <> Panic.
Lemma np_bind {A B} (r : rd A) (f : A -> rd B) : no_panic r -> (forall a, no_panic (f a)) -> no_panic (rdbind r f).
Proof.
  intros Hr Hf inp. unfold rdbind. specialize (Hr inp). destruct (r inp) as [[a i]|e|]; cbn [rbind]; [apply Hf|discriminate|congruence].
Qed.
Lemma np_ret {A} (a : A) : no_panic (rret a). Proof. intros inp. discriminate. Qed.
Lemma np_err {A} e : no_panic (@rerr A e). Proof. intros inp. discriminate. Qed.
Lemma np_exact n : no_panic (read_exact n). Proof. intros inp. apply read_exact_nopanic. Qed.
Lemma np_le n : no_panic (read_le n).
Proof. apply np_bind; [apply np_exact|intros; apply np_ret]. Qed.
Lemma np_var : no_panic read_var_uint. Proof. intros inp. apply read_var_go_nopanic. Qed.
Lemma np_string : no_panic read_string.
Proof. apply np_bind; [apply np_var|]. intros n. destruct (_ <? _); [apply np_err|]. destruct (_ =? _); [apply np_ret|apply np_exact]. Qed.
Lemma np_n {A} n (r : rd A) : no_panic r -> no_panic (read_n n r).
Proof. intros H. induction n as [|n IH]; [apply np_ret|]. cbn [read_n]. repeat (apply np_bind; [assumption|intros]). apply np_ret. Qed.
Lemma np_check {A} n (r : rd A) : no_panic r -> no_panic (check_rows n r).
Proof. intros H. unfold check_rows. destruct (_ <? _); [apply np_err|exact H]. Qed.
Lemma np_dec_sized t : sized t = true -> no_panic (dec_sized t).
Proof.
  intros Hs. destruct t; try discriminate Hs; cbn [dec_sized]; unfold read_signed, read_256;
    repeat first [apply np_ret | apply np_le | apply np_exact | apply np_bind; [|intros]].
Qed.
Lemma np_dec_string t : lengths_ok t = true -> no_panic (dec_string t).
Proof.
  intros L. destruct t; cbn [dec_string]; try (cbn [lengths_ok] in L; apply N.ltb_lt in L; unfold ISIZE_MAX; destruct (N.ltb_spec (2 ^ 63 - 1) n); [exfalso; lia|]);
  (apply np_bind; [apply np_string || apply np_exact|intros; apply np_ret]).
Qed.

Lemma floats_unwrap n inp v rest : deser_float64 n inp = Ok (v, rest) -> mapM unwrap_float v <> Panic.
Proof.
  intros H. apply check_ok in H. unfold deser_sized in H. revert inp v rest H.
  generalize (N.to_nat n) as k. induction k as [|k IH]; intros inp v rest H; cbn [read_n] in H.
  - injection H as <- <-. discriminate.
  - unfold rdbind in H. inv_bind H. destruct a as [x i]. cbn beta in H. inv_bind H. destruct a as [xs j]. injection H as <- <-.
    cbn [dec_sized] in E. unfold rdbind in E. inv_bind E. destruct a as [b i']. injection E as <- <-.
    cbn [mapM unwrap_float rbind]. specialize (IH _ _ _ E0). destruct (mapM unwrap_float xs); cbn [rbind]; congruence.
Qed.
Lemma np_float n : no_panic (deser_float64 n).
Proof. apply np_check, np_n, np_dec_sized. reflexivity. Qed.
Lemma np_point n : no_panic (deser_point n).
Proof.
  apply np_check. intros inp. unfold rdbind. pose proof (np_float n inp) as H1.
  destruct (deser_float64 n inp) as [[xs i1]| |] eqn:E1; cbn [rbind]; [|discriminate|congruence].
  pose proof (np_float n i1) as H2. destruct (deser_float64 n i1) as [[ys i2]| |] eqn:E2; cbn [rbind]; [|discriminate|congruence].
  apply floats_unwrap in E1, E2. destruct (mapM unwrap_float xs); cbn [rbind]; [|discriminate|congruence].
  destruct (mapM unwrap_float ys); cbn [rbind]; [discriminate|discriminate|congruence].
Qed.

Lemma np_header inner st : (forall n, no_panic (inner n)) -> no_panic (lc_header inner st).
Proof.
  intros H. unfold lc_header. apply np_bind; [apply np_le|]. intros flags.
  destruct (index_width flags); [|apply np_err].
  apply np_bind.
  { destruct (_ && _); [|apply np_ret]. apply np_bind; [apply np_le|]. intros n. apply np_bind; [apply H|intros; apply np_ret]. }
  intros gd. apply np_bind.
  { destruct (has_bit flags HAS_ADDITIONAL_KEYS_BIT); [|apply np_ret]. apply np_bind; [apply np_le|]. intros n. apply np_bind; [apply H|intros; apply np_ret]. }
  intros ad. apply np_bind; [apply np_le|intros; apply np_ret].
Qed.
Lemma lc_lookup_no_panic g h n gd ad e : lc_lookup g h n gd ad e <> Panic.
Proof.
  unfold lc_lookup, get_or_illegal. destruct h, g; destruct ad as [ad|], gd as [gd|]; try discriminate;
    repeat match goal with |- context [if ?b then _ else _] => destruct b end; try discriminate;
    match goal with |- context [nthN ?l ?i] => destruct (nthN l i) end; discriminate.
Qed.
Lemma mapM_no_panic {A B} (f : A -> res B) l : (forall x, f x <> Panic) -> mapM f l <> Panic.
Proof.
  intros H. induction l as [|x t IH]; cbn [mapM]; [discriminate|].
  specialize (H x). destruct (f x) as [y|e|]; cbn [rbind]; [|discriminate|congruence].
  destruct (mapM f t) as [ys|e|]; cbn [rbind]; congruence.
Qed.
Lemma np_iter inner nullable limit st : (forall n, no_panic (inner n)) -> no_panic (lc_iter inner nullable limit st).
Proof.
  intros H. unfold lc_iter. apply np_bind; [destruct (_ =? 0); [now apply np_header|apply np_ret]|].
  intros st1. apply np_bind; [apply np_check, np_n, np_le|]. intros es inp.
  pose proof (mapM_no_panic (lc_lookup (needs_global st1) (has_additional st1) nullable (gdict st1) (adict st1)) es (lc_lookup_no_panic _ _ _ _ _)) as HM.
  match goal with |- context [mapM ?f es] => destruct (mapM f es) end; cbn [rbind]; congruence.
Qed.
Lemma np_loop inner nullable : (forall n, no_panic (inner n)) -> forall f limit st out inp,
  lc_loop f inner nullable limit st out inp <> Panic.
Proof.
  intros Hn. induction f as [|f IH]; intros limit st out inp.
  - cbn [lc_loop]. destruct (limit =? 0); discriminate.
  - rewrite lc_loop_iter. destruct (limit =? 0); [discriminate|].
    pose proof (np_iter inner nullable limit st Hn inp) as HI.
    destruct (lc_iter inner nullable limit st inp) as [[[[st1 rd1] vals] i1]|e|]; cbn [rbind]; [apply IH|discriminate|congruence].
Qed.

Lemma push_column_no_panic acc col : (length col <= length acc)%nat -> push_column acc col <> Panic.
Proof.
  revert col; induction acc as [|a acc IH]; intros [|c col] H; cbn [push_column length] in *; try discriminate; try lia.
  specialize (IH col). destruct (push_column acc col); cbn [rbind]; try discriminate. apply IH. lia.
Qed.
Lemma apply_mask_no_panic m out : (length m <= length out)%nat -> apply_mask m out <> Panic.
Proof.
  revert out; induction m as [|b m IH]; intros [|v out] H; cbn [apply_mask length] in *; try discriminate; try lia.
  specialize (IH out). destruct (apply_mask m out); cbn [rbind]; try discriminate. apply IH. lia.
Qed.

(** No offsets anywhere in the type (and no invalid Nullable(LowCardinality)). *)
Fixpoint offset_free (t : ty) : bool :=
  match t with
  | TArray _ | TMap _ _ | TRing | TPolygon | TMultiPolygon => false
  | TTuple ts => forallb offset_free ts
  | TNullable x => offset_free x
  | TLowCard x => offset_free x
  | _ => true
  end.

Lemma deser_no_panic t : validate t = true -> offset_free t = true -> lengths_ok t = true -> forall rows, no_panic (deser t rows).
Proof.
  induction t as [t Hl|t IH IHs|t IH|ts IH|t IH|k v IHk IHv] using ty_ind_strip; intros Hv Ho HL0 rows; try discriminate Ho.
  - destruct t; try discriminate Hl; try discriminate Ho; apply np_check;
      first [ apply np_point | apply np_n; apply np_dec_string; exact HL0 | apply np_n; apply np_dec_sized; reflexivity ].
  - rewrite deser_lc_eq. apply np_check. intros inp. apply np_loop. intros n. cbn [validate] in Hv.
    apply andb_true_iff in Hv as [H1 H2]. apply IHs.
    + destruct t; try discriminate H1; try exact H2. cbn [strip_null validate] in *. now apply andb_true_iff in H2 as [_ H2].
    + destruct t; exact Ho.
    + destruct t; exact HL0.
  - rewrite deser_tuple_eq. apply np_check. apply np_bind; [|intros; apply np_ret].
    cbn [validate offset_free lengths_ok] in Hv, Ho, HL0.
    assert (G : forall acc, length acc = N.to_nat rows -> no_panic (deser_cols rows ts acc)).
    { induction IH as [|t ts Ht _ IHts]; intros acc HL; [apply np_ret|].
      cbn [forallb] in Hv, Ho, HL0. apply andb_true_iff in Hv as [V1 V2]. apply andb_true_iff in Ho as [O1 O2]. apply andb_true_iff in HL0 as [L1 L2].
      cbn [deser_cols]. fold (deser_cols rows). intros inp. unfold rdbind.
      pose proof (Ht V1 O1 L1 rows inp) as Hp. destruct (deser t rows inp) as [[col i]| |] eqn:E; cbn [rbind]; [|discriminate|congruence].
      apply deser_at_most in E. pose proof (push_column_no_panic acc col) as HPC.
      destruct (push_column acc col) as [a| |] eqn:EP; cbn [rbind]; [|discriminate|exfalso; apply HPC; [unfold lenN in E; lia|reflexivity]].
      apply IHts; try assumption. apply push_column_length in EP. lia. }
    apply G, repeat_length.
  - cbn [validate offset_free] in Hv, Ho. apply andb_true_iff in Hv as [H1 H2]. apply negb_true_iff in H1.
    cbn [deser]. apply np_check. intros inp. unfold rdbind.
    pose proof (np_exact rows inp) as Hp. destruct (read_exact rows inp) as [[m i1]| |] eqn:E; cbn [rbind]; [|discriminate|congruence].
    pose proof (IH H2 Ho HL0 rows i1) as Hq. destruct (deser t rows i1) as [[out i2]| |] eqn:E2; cbn [rbind]; [|discriminate|congruence].
    apply read_exact_ok in E as [_ E]. apply deser_rows in E2; [|destruct t; try discriminate H1; reflexivity].
    pose proof (apply_mask_no_panic m out) as HM. destruct (apply_mask m out); cbn [rbind]; [discriminate|discriminate|].
    exfalso. apply HM; [unfold lenN in E; lia|reflexivity].
Qed.

(* ---------- validation ---------- *)
Lemma validated_sendable t vs :
  Forall (fun v => validate_value t v = Ok tt /\ representable v = true /\ shape_ok t v = true) vs ->
  vs <> [] -> validate t = true /\ Forall (fun v => sendable t v = true) vs.
Proof.
  intros H Hne.
  assert (G : forall v, validate_value t v = Ok tt -> validate t = true /\ inner_validate t v = true).
  { intros v. unfold validate_value. destruct (validate t); [|discriminate]. cbn [negb].
    destruct (inner_validate t v); [auto|]. cbn [negb]. destruct (fmt_panics v); discriminate. }
  split.
  - destruct vs as [|v vs]; [congruence|]. inversion H as [|x l (Hv & _) _]; subst. now apply G in Hv.
  - eapply Forall_impl; [|exact H]. intros v (Hv & Hr & Hs). apply G in Hv as [_ Hv]. now apply sendable_intro.
Qed.

Lemma validated_sends t vs :
  Forall (fun v => validate_value t v = Ok tt /\ representable v = true /\ shape_ok t v = true) vs -> fits t vs -> vs <> [] ->
  exists bs, ser t vs = Ok bs /\ forall rest, deser t (lenN vs) (bs ++ rest) = Ok (map (normal t) vs, rest).
Proof.
  intros H Hf Hne. destruct (validated_sendable t vs H Hne) as [Hv Hs].
  destruct (column_roundtrip t vs Hv Hs Hf) as (bs & E & _ & D). eauto.
Qed.

Lemma validate_value_panics t v :
  validate_value t v = Panic <-> (validate t = true /\ inner_validate t v = false /\ fmt_panics v = true).
Proof.
  unfold validate_value. destruct (validate t), (inner_validate t v), (fmt_panics v); cbn [negb]; split; intros H;
    try discriminate H; try (destruct H as (? & ? & ?); discriminate); auto.
Qed.

(* ---------- defaults ---------- *)
(** Every enum whose default would be used has a variant numbered 0. *)
Fixpoint enum_zero (t : ty) : bool :=
  match t with
  | TEnum8 l | TEnum16 l => existsb (fun e => (snd e =? 0)%Z) l
  | TLowCard x => enum_zero x
  | TTuple ts => forallb enum_zero ts
  | _ => true
  end.

Lemma default_valid_iff t : inner_validate t (default_value t) = enum_zero t.
Proof.
  induction t as [t Hl|t IH|t IH|ts IH|t IH|k v IHk IHv] using ty_ind_leaf.
  - destruct t; try discriminate Hl; cbn [default_value inner_validate enum_zero]; rewrite ?N.eqb_refl; try reflexivity;
      destruct w; reflexivity.
  - exact IH.
  - reflexivity.
  - cbn [default_value inner_validate enum_zero]. induction IH as [|t ts H1 _ IHts]; [reflexivity|].
    cbn [map zip_all forallb]. now rewrite H1, IHts.
  - reflexivity.
  - reflexivity.
Qed.

Lemma forallb_byteb_zeros n : forallb byteb (zeros n) = true.
Proof. induction n as [|n IH]; [reflexivity|]. cbn. exact IH. Qed.

Lemma default_representable t : representable (default_value t) = true.
Proof.
  induction t as [t Hl|t IH|t IH|ts IH|t IH|k v IHk IHv] using ty_ind_leaf; try reflexivity; try exact IH.
  - destruct t; try discriminate Hl; try reflexivity; destruct w; reflexivity.
  - cbn [default_value representable]. induction IH as [|t ts H1 _ IHts]; [reflexivity|]. cbn [map forallb]. now rewrite H1, IHts.
Qed.

(** NULL is the default of a Nullable; a Nullable geo type cannot be sent a NULL. *)
Fixpoint no_nullable_geo (t : ty) : bool :=
  match t with
  | TNullable x => negb (is_geo x)
  | TLowCard x => no_nullable_geo x
  | TTuple ts => forallb no_nullable_geo ts
  | _ => true
  end.
Lemma default_shape t : no_nullable_geo t = true -> shape_ok t (default_value t) = true.
Proof.
  induction t as [t Hl|t IH|t IH|ts IH|t IH|k v IHk IHv] using ty_ind_leaf; intros Hn; try reflexivity; try exact (IH Hn).
  - destruct t; try discriminate Hl; reflexivity.
  - cbn [default_value shape_ok]. rewrite lenN_map, N.eqb_refl. cbn [andb no_nullable_geo] in *.
    induction IH as [|t ts H1 _ IHts]; [reflexivity|]. cbn [map zip_all forallb] in *. apply andb_true_iff in Hn as [N1 N2].
    now rewrite H1, IHts.
  - cbn [default_value shape_ok is_null]. exact Hn.
Qed.

Lemma default_canonical t : canonical t (default_value t) = true.
Proof.
  induction t as [t Hl|t IH|t IH|ts IH|t IH|k v IHk IHv] using ty_ind_leaf; try reflexivity; try exact IH.
  - destruct t; try discriminate Hl; try reflexivity; try (destruct w; reflexivity).
    cbn [default_value canonical]. unfold fixed_ok. rewrite lenN_nil. cbn [forallb]. rewrite andb_true_r. lia.
  - cbn [default_value canonical]. induction IH as [|t ts H1 _ IHts]; [reflexivity|]. cbn [map zip_all]. now rewrite H1, IHts.
Qed.

Lemma default_str_len t : lc_allowed (strip_null t) = true -> str_len (default_value t) = 0.
Proof. intros H. destruct t; try discriminate H; try reflexivity. Qed.

Lemma default_fits t : validate t = true -> lengths_ok t = true -> fits t [default_value t].
Proof.
  induction t as [t Hl|t IH|t IH|ts IH|t IH|k v IHk IHv] using ty_ind_leaf; intros Hv HL.
  - destruct t; try discriminate Hl; (split; [discriminate|]); try exact I; try (repeat constructor; discriminate). constructor; [|constructor]. now apply N.ltb_lt.
  - cbn [validate] in Hv. apply andb_true_iff in Hv as [Hv _]. split; [discriminate|]. split; [reflexivity|].
    constructor; [|constructor]. cbn [default_value]. assert (W : within (str_len (default_value t))) by (rewrite default_str_len by assumption; unfold within; discriminate).
    split; [exact W|]. apply lengths_room; [destruct t; exact HL|exact W].
  - split; [discriminate|]. cbn [flat_map elems default_value app].
    clear. assert (G : forall t, fits t []).
    { clear. induction t as [t Hl|t IH|t IH|ts IH|t IH|k v IHk IHv] using ty_ind_leaf.
      - destruct t; try discriminate Hl; (split; [discriminate|]); try exact I; repeat constructor; discriminate.
      - split; [discriminate|]. split; [reflexivity|constructor].
      - split; [discriminate|]. exact IH.
      - split; [discriminate|]. cbn [map]. change ((fix go (ts : list ty) (rows : list (list value)) : Prop :=
         match ts with
         | [] => True
         | t1 :: ts' =>
             fits t1 (flat_map (fun r => match r with [] => [] | x :: _ => [x] end) rows)
             /\ go ts' (map (@tl value) rows)
         end) ts []) with (fits_cols ts []).
        induction IH as [|t ts H1 _ IHts]; [exact I|]. split; [exact H1|exact IHts].
      - split; [discriminate|exact IH].
      - split; [discriminate|split; assumption]. }
    apply G.
  - split; [discriminate|]. cbn [validate] in Hv. cbn [map tuple_elems default_value].
    change (fits_cols ts [map default_value ts]).
    induction IH as [|t ts H1 _ IHts]; [exact I|]. cbn [forallb lengths_ok] in Hv, HL. apply andb_true_iff in Hv as [V1 V2]. apply andb_true_iff in HL as [L1 L2].
    cbn [map]. split; [exact (H1 V1 L1)|]. exact (IHts V2 L2).
  - cbn [validate] in Hv. apply andb_true_iff in Hv as [H1 H2]. split; [discriminate|]. cbn [default_value].
    apply negb_true_iff in H1. destruct t; try discriminate H1; (split; [discriminate|]); try exact I; try (repeat constructor; discriminate). constructor; [|constructor]. now apply N.ltb_lt.
  - split; [discriminate|]. cbn [flat_map map_keys map_vals default_value app].
    assert (G : forall t, fits t []).
    { clear. induction t as [t Hl|t IH|t IH|ts IH|t IH|k v IHk IHv] using ty_ind_leaf.
      - destruct t; try discriminate Hl; (split; [discriminate|]); try exact I; repeat constructor; discriminate.
      - split; [discriminate|]. split; [reflexivity|constructor].
      - split; [discriminate|]. exact IH.
      - split; [discriminate|]. cbn [map]. change (fits_cols ts []).
        induction IH as [|t ts H1 _ IHts]; [exact I|]. split; [exact H1|exact IHts].
      - split; [discriminate|exact IH].
      - split; [discriminate|split; assumption]. }
    split; apply G.
Qed.

Lemma default_roundtrip t : validate t = true -> lengths_ok t = true -> enum_zero t = true -> no_nullable_geo t = true ->
  exists bs, ser t [default_value t] = Ok bs /\ forall rest, deser t 1 (bs ++ rest) = Ok ([default_value t], rest).
Proof.
  intros Hv HL He Hn.
  assert (Hi : inner_validate t (default_value t) = true) by (now rewrite default_valid_iff).
  destruct (column_roundtrip t [default_value t] Hv) as (bs & E & _ & D).
  - constructor; [|constructor]. apply sendable_intro; [apply default_representable|assumption|now apply default_shape].
  - now apply default_fits.
  - exists bs. split; [exact E|]. intros rest. specialize (D rest). cbn [map] in D.
    rewrite normal_canonical in D; [exact D|assumption|now apply default_shape|apply default_canonical].
Qed.

Definition ser_cols := fix go (ts : list ty) (rows : list (list value)) : res (list N) :=
  match ts with
  | [] => Ok []
  | t1 :: ts' => b <- ser t1 (heads rows) ;; bs <- go ts' (tails rows) ;; Ok (b ++ bs)
  end.
Lemma default_panics t : validate t = true -> lengths_ok t = true -> enum_zero t = true -> no_nullable_geo t = false -> ser t [default_value t] = Panic.
Proof.
  induction t as [t Hl|t IH|t IH|ts IH|t IH|k v IHk IHv] using ty_ind_leaf; intros Hv HL He Hn; try discriminate Hn.
  - destruct t; try discriminate Hl; discriminate Hn.
  - cbn [validate no_nullable_geo] in *. apply andb_true_iff in Hv as [H1 _]. destruct t; try discriminate Hn; try discriminate H1.
    cbn [no_nullable_geo strip_null] in *. destruct t; discriminate.
  - cbn [validate lengths_ok enum_zero no_nullable_geo] in *. cbn [ser default_value mapM unwrap_tuple rbind existsb].
    rewrite lenN_map, N.ltb_irrefl. cbn [orb]. change (ser_cols ts [map default_value ts] = Panic).
    induction IH as [|t ts H1 _ IHts]; [discriminate Hn|]. cbn [forallb] in *.
    apply andb_true_iff in Hv as [V1 V2]. apply andb_true_iff in He as [E1 E2]. apply andb_true_iff in HL as [L1 L2].
    cbn [ser_cols map heads tails flat_map app tl]. fold ser_cols.
    destruct (no_nullable_geo t) eqn:N1.
    + destruct (default_roundtrip t V1 L1 E1 N1) as (bs & -> & _). cbn [rbind]. cbn [andb] in Hn. now rewrite (IHts V2 L2 E2 Hn).
    + now rewrite (H1 V1 L1 E1 eq_refl).
  - cbn [no_nullable_geo] in Hn. apply negb_false_iff in Hn. destruct t; try discriminate Hn; reflexivity.
Qed.

Lemma rejection_is_error t v : fmt_panics v = false ->
  validate_value t v = Ok tt \/ validate_value t v = Err ETypeParse.
Proof. intros H. unfold validate_value. rewrite H. destruct (validate t), (inner_validate t v); cbn [negb]; auto. Qed.
