(** Blocks: round trip, info, ragged columns, locality, row iterators. *)
From Verif Require Import Base Io IoProofs Types Text TypeText TypeTextProofs TypeTextProofs2 Utf8 IndexMap Ser Deser
  ColumnSpec ColumnProofs ColumnRoundtrip LowCardProofs WireProofs DecodeProofs DecodeProofs2 Block BlockSpec.

(* ---------------- strings ---------------- *)

Lemma read_write_text s rest : name_fits s -> read_utf8_string (write_text s ++ rest) = Ok (s, rest).
Proof.
  intros [H1 H2]. unfold read_utf8_string, write_text, rdbind. rewrite read_write_string by exact H2.
  cbn [rbind]. now rewrite utf8_roundtrip.
Qed.

(* ---------------- info ---------------- *)

Lemma info_fuel_0 f i rest : info_loop (S f) i (write_var_uint 0 ++ rest) = Ok (i, rest).
Proof. reflexivity. Qed.

Lemma read_write_info i rest : (- 2 ^ 31 <= bucket_num i < 2 ^ 31)%Z ->
  read_info (write_info i ++ rest) = Ok ({| is_overflows := true; bucket_num := bucket_num i |}, rest).
Proof.
  intros Hb. unfold read_info, write_info. rewrite <- !app_assoc.
  set (tail := le_bytes 4 (s2u 32 (bucket_num i)) ++ write_var_uint 0 ++ rest).
  change (write_var_uint 1) with [1]. change (write_var_uint 2) with [2].
  cbn [app length]. cbn [info_loop].
  replace (read_var_uint (1 :: (if is_overflows i then 1 else 2) :: 2 :: tail)) with
    (@Ok (N * list N) (1, (if is_overflows i then 1 else 2) :: 2 :: tail)) by reflexivity.
  cbn [rbind]. change (1 =? 0) with false. change (1 =? 1) with true. cbn iota.
  replace (read_le 1 ((if is_overflows i then 1 else 2) :: 2 :: tail)) with
    (@Ok (N * list N) ((if is_overflows i then 1 else 2), 2 :: tail)) by (destruct (is_overflows i); reflexivity).
  cbn [rbind]. replace (negb ((if is_overflows i then 1 else 2) =? 0)) with true by (destruct (is_overflows i); reflexivity).
  replace (read_var_uint (2 :: tail)) with (@Ok (N * list N) (2, tail)) by reflexivity.
  cbn [rbind]. change (2 =? 0) with false. change (2 =? 1) with false. change (2 =? 2) with true. cbn iota.
  unfold tail. rewrite read_le_app by (apply (s2u_bound 32)).
  cbn [rbind bucket_num is_overflows]. rewrite u2s_s2u by (try reflexivity; exact Hb).
  rewrite app_length. reflexivity.
Qed.

(* ---------------- columns ---------------- *)

Lemma column_block_roundtrip U D rows name t vs : tzdb_ok D -> column_ok U D rows name t vs ->
  exists bs, write_column D rows (name, t, vs) = Ok bs /\
    forall rest, read_column U D rows (bs ++ rest) = Ok ((name, t, map (normal t) vs), rest).
Proof.
  intros HD (Hn & Ht & Hp & Hl & Hv). unfold write_column, read_column. rewrite Hl, N.eqb_refl. cbn [negb].
  destruct (N.ltb_spec 0 rows) as [H0|H0].
  - destruct (Hv ltac:(lia)) as (V1 & V2 & V3). destruct (column_roundtrip t vs V1 V2 V3) as (bs & E & _ & R).
    rewrite E. cbn [rbind]. eexists. split; [reflexivity|]. intros rest. unfold rdbind at 1.
    rewrite <- !app_assoc, (read_write_text name) by exact Hn. cbn [rbind]. unfold rdbind at 1.
    rewrite (read_write_text (show_ty D t)) by exact Ht. cbn [rbind]. unfold rdbind at 1, lift.
    rewrite parse_show by assumption. cbn [rbind]. unfold rdbind at 1 2. rewrite prefix_roundtrip by exact V1. cbn [rbind].
    rewrite <- Hl, R. reflexivity.
  - cbn [rbind]. eexists. split; [reflexivity|]. intros rest. unfold rdbind at 1.
    rewrite <- !app_assoc, (read_write_text name) by exact Hn. cbn [rbind]. unfold rdbind at 1.
    rewrite (read_write_text (show_ty D t)) by exact Ht. cbn [rbind app]. unfold rdbind at 1, lift.
    rewrite parse_show by assumption. cbn [rbind]. unfold rdbind, rret. cbn [rbind].
    assert (vs = []) as -> by (apply lenN_0; lia). reflexivity.
Qed.

Lemma join_columns_spec types : forall data, NoDup (im_keys types) -> NoDup (im_keys data) ->
  join_columns types data =
  flat_map (fun e : text * ty => match im_get (fst e) data with Some vs => [(fst e, snd e, vs)] | None => [] end) types.
Proof.
  induction types as [|[k t] types IH]; intros data Ht Hd; [reflexivity|].
  cbn [join_columns flat_map fst snd]. pose proof (swap_remove_get k data Hd) as S.
  cbn [im_keys map fst] in Ht. inversion Ht as [|? ? Hk Ht']; subst.
  destruct (im_swap_remove k data) as [[vs data']|].
  - destruct S as (-> & Hd' & S). cbn [app]. f_equal. rewrite IH by assumption.
    rewrite !flat_map_concat_map. f_equal. apply map_ext_in. intros [k' t'] Hi. cbn [fst snd]. rewrite S; [reflexivity|].
    intros ->. apply Hk. apply (in_map fst) in Hi. exact Hi.
  - rewrite S. cbn [app]. now apply IH.
Qed.

Lemma join_complete types data (col : text -> list value) : NoDup (im_keys types) -> NoDup (im_keys data) ->
  (forall k t, In (k, t) types -> im_get k data = Some (col k)) ->
  join_columns types data = map (fun e => (fst e, snd e, col (fst e))) types.
Proof.
  intros H1 H2 H. rewrite join_columns_spec by assumption. clear H1. induction types as [|[k t] types IH]; [reflexivity|].
  cbn [flat_map map fst snd]. rewrite (H k t) by now left. cbn [app]. f_equal. apply IH. intros; eapply H; right; eassumption.
Qed.

Lemma fold_add cols : forall b, NoDup (im_keys (b_types b) ++ map (fun c => fst (fst c)) cols) ->
  im_keys (b_data b) = im_keys (b_types b) ->
  fold_left add_column cols b =
  {| b_info := b_info b; b_rows := b_rows b;
     b_types := b_types b ++ map (fun c => (fst (fst c), snd (fst c))) cols;
     b_data := b_data b ++ map (fun c => (fst (fst c), snd c)) cols |}.
Proof.
  induction cols as [|[[k t] vs] cols IH]; intros b Hn Hk; cbn [fold_left map fst snd].
  - rewrite !app_nil_r. now destruct b.
  - assert (Hnk : ~ In k (im_keys (b_types b))).
    { cbn [map fst] in Hn. apply NoDup_remove_2 in Hn. rewrite in_app_iff in Hn. tauto. }
    rewrite IH; cbn [add_column b_types b_data b_info b_rows];
      rewrite ?(im_insert_new k t (b_types b)) by exact Hnk;
      rewrite ?(im_insert_new k vs (b_data b)) by (now rewrite Hk).
    + rewrite <- !app_assoc. reflexivity.
    + unfold im_keys in *. rewrite map_app. cbn [map fst] in *. now rewrite <- app_assoc.
    + unfold im_keys in *. rewrite !map_app. cbn [map fst]. now rewrite Hk.
Qed.

Lemma read_write_cols U D rows cols : tzdb_ok D ->
  (forall k t vs, In (k, t, vs) cols -> column_ok U D rows k t vs) ->
  exists bss, mapM (write_column D rows) cols = Ok bss /\
   forall rest, read_n (length cols) (read_column U D rows) (concat bss ++ rest)
     = Ok (map (fun c => (fst c, map (normal (snd (fst c))) (snd c))) cols, rest).
Proof.
  intros HD. induction cols as [|[[k t] vs] cols IH]; intros H.
  - exists []. split; reflexivity.
  - destruct (column_block_roundtrip U D rows k t vs HD) as (bs & E & R); [apply H; now left|].
    destruct IH as (bss & E' & R'); [intros; apply H; now right|].
    exists (bs :: bss). cbn [mapM]. rewrite E. cbn [rbind]. rewrite E'. cbn [rbind]. split; [reflexivity|].
    intros rest. cbn [concat length read_n]. unfold rdbind at 1. rewrite <- app_assoc, R. cbn [rbind].
    unfold rdbind. rewrite R'. reflexivity.
Qed.

Theorem block_roundtrip U D rev b : tzdb_ok D -> block_ok U D b -> (- 2 ^ 31 <= bucket_num (b_info b) < 2 ^ 31)%Z ->
  exists bytes b', write_block D rev b = Ok bytes /\
    (forall rest, read_block U D rev (bytes ++ rest) = Ok (b', rest)) /\
    b_rows b' = b_rows b /\ b_types b' = b_types b /\ im_keys (b_data b') = im_keys (b_types b) /\
    (forall k t vs, In (k, t) (b_types b) -> im_get k (b_data b) = Some vs -> im_get k (b_data b') = Some (map (normal t) vs)) /\
    b_info b' = sent_info rev (b_info b).
Proof.
  intros HD (Ht & Hd & Hc & Hr & Hn) Hb.
  set (col := fun k => match im_get k (b_data b) with Some vs => vs | None => [] end).
  assert (HJ : join_columns (b_types b) (b_data b) = map (fun e => (fst e, snd e, col (fst e))) (b_types b)).
  { apply join_complete; auto. intros k t Hi. destruct (Hc k t Hi) as (vs & E & _). unfold col. now rewrite E. }
  set (cols := map (fun e => (fst e, snd e, col (fst e))) (b_types b)) in *.
  destruct (read_write_cols U D (b_rows b) cols HD) as (bss & E & R).
  { intros k t vs Hi. apply in_map_iff in Hi as ([k' t'] & [= -> -> <-] & Hi). destruct (Hc k t Hi) as (vs & Ev & Hok).
    unfold col. now rewrite Ev. }
  unfold write_block. rewrite HJ. rewrite E. cbn [rbind].
  eexists. exists {| b_info := sent_info rev (b_info b); b_rows := b_rows b; b_types := b_types b;
             b_data := map (fun e => (fst e, map (normal (snd e)) (col (fst e)))) (b_types b) |}. split; [reflexivity|].
  assert (Lc : lenN cols = lenN (b_types b)) by (unfold cols; now rewrite lenN_map).
  assert (RB : forall info rest,
    (columns <~ read_var_uint ;;; rows <~ read_var_uint ;;;
     cs <~ read_n (N.to_nat columns) (read_column U D rows) ;;;
     rret (fold_left add_column cs {| b_info := info; b_rows := rows; b_types := []; b_data := [] |}))
    (write_var_uint (lenN cols) ++ write_var_uint (b_rows b) ++ concat bss ++ rest)
    = Ok ({| b_info := info; b_rows := b_rows b; b_types := b_types b;
             b_data := map (fun e => (fst e, map (normal (snd e)) (col (fst e)))) (b_types b) |}, rest)).
  { intros info rest. unfold rdbind at 1. rewrite read_write_var_uint by lia. cbn [rbind]. unfold rdbind at 1.
    rewrite read_write_var_uint by lia. cbn [rbind]. unfold rdbind at 1.
    replace (N.to_nat (lenN cols)) with (length cols) by (unfold lenN; lia). rewrite R. cbn [rbind]. unfold rret.
    rewrite fold_add; cbn [b_info b_rows b_types b_data im_keys map app].
    - f_equal. f_equal. f_equal.
      + unfold cols. rewrite !map_map. cbn [fst snd]. rewrite <- (map_id (b_types b)) at 2. apply map_ext. now intros [].
      + unfold cols. rewrite !map_map. reflexivity.
    - unfold cols. rewrite !map_map. cbn [fst snd]. exact Ht.
    - reflexivity. }
  split; [|cbn [b_rows b_types b_data b_info]; repeat split].
  - intros rest. unfold read_block, rdbind at 1. rewrite <- !app_assoc.
    unfold sent_info. destruct (0 <? rev).
    + rewrite read_write_info by exact Hb. cbn [rbind]. apply RB.
    + cbn [app]. unfold rret at 1. cbn [rbind]. apply RB.
  - unfold im_keys. now rewrite map_map.
  - intros k t vs Hi Ev. apply im_get_in.
    + unfold im_keys. rewrite map_map. exact Ht.
    + apply in_map_iff. exists (k, t). cbn [fst snd]. split; [|exact Hi]. unfold col. now rewrite Ev.
Qed.

(* ---------------- ragged columns ---------------- *)

Lemma mapM_ok_forall {A B} (f : A -> res B) l ys : mapM f l = Ok ys -> forall x, In x l -> exists y, f x = Ok y.
Proof.
  revert ys; induction l as [|a l IH]; intros ys; cbn [mapM]; [intros _ ? []|].
  intros H. inv_bind H. inv_bind H. intros x [->|Hx]; eauto.
Qed.

Theorem write_block_lengths D rev b bytes : NoDup (im_keys (b_types b)) -> NoDup (im_keys (b_data b)) ->
  write_block D rev b = Ok bytes ->
  forall k t vs, In (k, t) (b_types b) -> im_get k (b_data b) = Some vs -> lenN vs = b_rows b.
Proof.
  intros Ht Hd H k t vs Hi Hv. unfold write_block in H. inv_bind H.
  rewrite join_columns_spec in E by assumption.
  destruct (mapM_ok_forall _ _ _ E (k, t, vs)) as [y Hy].
  { apply in_flat_map. exists (k, t). split; [exact Hi|]. cbn [fst snd]. rewrite Hv. now left. }
  unfold write_column in Hy. destruct (N.eqb_spec (lenN vs) (b_rows b)) as [|]; [assumption|discriminate].
Qed.

(* ---------------- locality and termination of reading ---------------- *)

Lemma local_lift {A} (r : res A) : local (lift r).
Proof. apply local_pure. exists r. reflexivity. Qed.
Lemma local_utf8 : local read_utf8_string.
Proof. apply local_bind; [apply local_string|]. intros bs. destruct (utf8_decode bs); [apply local_ret|apply local_err]. Qed.

Lemma var_uses_go k i out inp v rest : read_var_uint_go (S k) i out inp = Ok (v, rest) ->
  (1 + length rest <= length inp)%nat.
Proof.
  intros H. destruct inp as [|b inp]; [discriminate|].
  cbn [read_var_uint_go] in H. destruct (N.land b 128 =? 0); [injection H as _ <-; cbn [length]; lia|].
  apply read_var_go_local in H as (u & -> & _). cbn [length]. rewrite app_length. lia.
Qed.
Lemma var_uses : uses 1 read_var_uint.
Proof. intros inp v rest H. exact (var_uses_go 8 0 0 inp v rest H). Qed.

Lemma info_local f : forall i inp v rest, info_loop f i inp = Ok (v, rest) ->
  exists used, inp = used ++ rest /\ forall ext f', (length used <= f')%nat -> info_loop (S f') i (used ++ ext) = Ok (v, ext).
Proof.
  induction f as [|f IH]; intros i inp v rest; cbn [info_loop]; [discriminate|]. intros H.
  inv_bind H. destruct a as [field i1]. pose proof (var_uses _ _ _ E) as L1.
  destruct (local_var _ _ _ E) as (u1 & -> & D1). rewrite app_length in L1.
  assert (K : forall n (g : N -> block_info), (b <- read_le n i1 ;; let '(x, i2) := b in info_loop f (g x) i2) = Ok (v, rest) ->
     exists used, u1 ++ i1 = used ++ rest /\ forall ext f', (length used <= f')%nat ->
       exists f'', f' = S f'' /\ exists mid, used = u1 ++ mid /\ (b <- read_le n (mid ++ ext) ;; let '(x, i2) := b in info_loop f' (g x) i2) = Ok (v, ext)).
  { intros n g HK. inv_bind HK. destruct a as [x i2]. destruct (local_le n _ _ _ E0) as (u2 & -> & D2).
    destruct (IH _ _ _ _ HK) as (u3 & -> & D3). exists (u1 ++ u2 ++ u3). split; [now rewrite <- !app_assoc|].
    intros ext f' Hf. rewrite !app_length in Hf. destruct f' as [|f'']; [lia|]. exists f''. split; [reflexivity|].
    exists (u2 ++ u3). split; [reflexivity|]. rewrite <- app_assoc, D2. cbn [rbind]. apply D3. lia. }
  destruct (field =? 0) eqn:E0.
  - injection H as <- <-. exists u1. split; [reflexivity|]. intros ext f' _. cbn [info_loop]. rewrite D1. cbn [rbind]. now rewrite E0.
  - destruct (field =? 1) eqn:E1; [|destruct (field =? 2) eqn:E2; [|discriminate]].
    + destruct (K 1%nat (fun b => {| is_overflows := negb (b =? 0); bucket_num := bucket_num i |}) H) as (used & Eu & D).
      exists used. split; [exact Eu|]. intros ext f' Hf. destruct (D ext f' Hf) as (f'' & -> & mid & -> & DD).
      cbn [info_loop]. rewrite <- app_assoc, D1. cbn [rbind]. rewrite E0, E1. exact DD.
    + destruct (K 4%nat (fun b => {| is_overflows := is_overflows i; bucket_num := u2s 32 b |}) H) as (used & Eu & D).
      exists used. split; [exact Eu|]. intros ext f' Hf. destruct (D ext f' Hf) as (f'' & -> & mid & -> & DD).
      cbn [info_loop]. rewrite <- app_assoc, D1. cbn [rbind]. rewrite E0, E1, E2. exact DD.
Qed.
Lemma local_info : local read_info.
Proof.
  intros inp v rest H. unfold read_info in *. destruct (info_local _ _ _ _ _ H) as (u & -> & D).
  exists u. split; [reflexivity|]. intros ext. apply D. rewrite app_length. lia.
Qed.

Lemma info_terminates_go f : forall i inp, (length inp < f)%nat -> info_loop f i inp <> Err EFuel.
Proof.
  induction f as [|f IH]; intros i inp Hf; [lia|]. cbn [info_loop].
  pose proof (nf_var inp) as NV. destruct (read_var_uint inp) as [[field i1]|e|] eqn:E; cbn [rbind]; [|congruence|discriminate].
  apply var_uses in E. destruct (field =? 0); [discriminate|].
  assert (K : forall n (g : N -> block_info), (b <- read_le n i1 ;; let '(x, i2) := b in info_loop f (g x) i2) <> Err EFuel).
  { intros n g. pose proof (nf_le n i1) as NL. destruct (read_le n i1) as [[x i2]|e|] eqn:E'; cbn [rbind]; [|congruence|discriminate].
    apply uses_le in E'. apply IH. lia. }
  destruct (field =? 1); [apply (K 1%nat)|]. destruct (field =? 2); [apply (K 4%nat)|discriminate].
Qed.
Lemma nf_info : no_fuel read_info.
Proof. intros inp. apply info_terminates_go. lia. Qed.

Lemma nf_lift {A} (r : res A) : r <> Err EFuel -> no_fuel (lift r).
Proof. intros H inp. unfold lift. destruct r; cbn [rbind]; congruence. Qed.
Lemma nf_utf8 : no_fuel read_utf8_string.
Proof. apply nf_bind; [apply nf_string|]. intros bs. destruct (utf8_decode bs); [apply nf_ret|intros ?; discriminate]. Qed.

Lemma prefix_local t : local (deser_prefix t).
Proof.
  induction t as [t Hl|t IH|t IH|ts IH|t IH|k v IHk IHv] using ty_ind_leaf; cbn [deser_prefix]; try assumption.
  - destruct t; try discriminate Hl; apply local_ret.
  - apply local_bind; [apply local_le|]. intros v. destruct (v =? _); [apply local_ret|apply local_err].
  - induction IH as [|t ts Ht _ IH]; [apply local_ret|]. apply local_bind; [exact Ht|]. intros _. exact IH.
  - apply local_bind; [exact IHk|]. intros _. apply local_bind; [exact IHv|]. intros _. apply local_ret.
Qed.
Lemma prefix_nf t : no_fuel (deser_prefix t).
Proof.
  induction t as [t Hl|t IH|t IH|ts IH|t IH|k v IHk IHv] using ty_ind_leaf; cbn [deser_prefix]; try assumption.
  - destruct t; try discriminate Hl; apply nf_ret.
  - apply nf_bind; [apply nf_le|]. intros v. destruct (v =? _); [apply nf_ret|intros ?; discriminate].
  - induction IH as [|t ts Ht _ IH]; [apply nf_ret|]. apply nf_bind; [exact Ht|]. intros _. exact IH.
  - apply nf_bind; [exact IHk|]. intros _. apply nf_bind; [exact IHv|]. intros _. apply nf_ret.
Qed.

Lemma column_local U D rows : local (read_column U D rows).
Proof.
  apply local_bind; [apply local_utf8|]. intros name. apply local_bind; [apply local_utf8|]. intros tn.
  apply local_bind; [apply local_lift|]. intros t. apply local_bind; [|intros; apply local_ret].
  destruct (0 <? rows); [|apply local_ret]. apply local_bind; [apply prefix_local|intros _; apply deser_local].
Qed.
Lemma block_local U D rev : local (read_block U D rev).
Proof.
  apply local_bind; [destruct (0 <? rev); [apply local_info|apply local_ret]|]. intros info.
  apply local_bind; [apply local_var|]. intros columns. apply local_bind; [apply local_var|]. intros rows.
  apply local_bind; [apply local_n, column_local|]. intros. apply local_ret.
Qed.
Lemma column_nf U D rows : no_fuel (read_column U D rows).
Proof.
  apply nf_bind; [apply nf_utf8|]. intros name. apply nf_bind; [apply nf_utf8|]. intros tn.
  apply nf_bind; [apply nf_lift, parse_terminates|]. intros t. apply nf_bind; [|intros; apply nf_ret].
  destruct (0 <? rows); [|apply nf_ret]. apply nf_bind; [apply prefix_nf|intros _; apply deser_terminates].
Qed.
Lemma block_terminates U D rev : no_fuel (read_block U D rev).
Proof.
  apply nf_bind; [destruct (0 <? rev); [apply nf_info|apply nf_ret]|]. intros info.
  apply nf_bind; [apply nf_var|]. intros columns. apply nf_bind; [apply nf_var|]. intros rows.
  apply nf_bind; [apply nf_n, column_nf|]. intros. apply nf_ret.
Qed.

(* ---------------- row iterators ---------------- *)

Lemma row_at_spec data n i : Forall (fun e : text * list value => lenN (snd e) = n) data -> i < n ->
  row_at data i = Some (map (fun e => (fst e, nth (N.to_nat i) (snd e) VNull)) data).
Proof.
  intros H Hi. induction H as [|[k vs] data Hk _ IH]; [reflexivity|]. cbn [row_at map fst snd] in *.
  unfold get_at. rewrite nthN_nth, (nth_error_nth' vs VNull) by (unfold lenN in Hk; lia). now rewrite IH.
Qed.
Lemma iter_from_spec data n : Forall (fun e : text * list value => lenN (snd e) = n) data -> forall m i,
  (i + m <= N.to_nat n)%nat ->
  iter_rows_from data (N.of_nat i) m = map (fun i => map (fun e => (fst e, nth i (snd e) VNull)) data) (seq i m).
Proof.
  intros H. induction m as [|m IH]; intros i Hm; [reflexivity|]. cbn [iter_rows_from seq map].
  rewrite (row_at_spec data n) by (assumption || lia). rewrite Nat2N.id. f_equal.
  replace (N.of_nat i + 1) with (N.of_nat (S i)) by lia. apply IH. lia.
Qed.
Lemma iter_rows_spec b : full b ->
  iter_rows b = map (fun i => map (fun e => (fst e, nth i (snd e) VNull)) (b_data b)) (seq 0 (N.to_nat (b_rows b))).
Proof. intros H. unfold iter_rows. change 0 with (N.of_nat 0). apply (iter_from_spec _ (b_rows b) H). lia. Qed.

Lemma pop_row_spec {A B} (d : B) (cols : list (A * list B)) n : Forall (fun e => length (snd e) = S n) cols ->
  pop_row cols = Some (map (fun e => (fst e, nth 0 (snd e) d)) cols, map (fun e => (fst e, tl (snd e))) cols).
Proof.
  induction 1 as [|[k vs] cols Hk _ IH]; [reflexivity|]. cbn [pop_row fst snd] in *. destruct vs as [|v vs]; [discriminate|].
  rewrite IH. reflexivity.
Qed.
Lemma pop_row_short {A B} (cols : list (A * list B)) : cols <> [] -> Forall (fun e => length (snd e) = 0%nat) cols ->
  pop_row cols = None.
Proof. intros H F. destruct F as [|[k vs] cols Hk _]; [congruence|]. cbn [snd] in Hk. destruct vs; [reflexivity|discriminate]. Qed.
Lemma pop_rows_S {A B} f (cols : list (A * list B)) : cols <> [] ->
  pop_rows (S f) cols = match pop_row cols with None => [] | Some (row, rest) => row :: pop_rows f rest end.
Proof. intros H. destruct cols; [congruence|reflexivity]. Qed.
Lemma pop_rows_spec {A B} (d : B) : forall n (cols : list (A * list B)), cols <> [] ->
  Forall (fun e => length (snd e) = n) cols ->
  pop_rows (S n) cols = map (fun i => map (fun e => (fst e, nth i (snd e) d)) cols) (seq 0 n).
Proof.
  induction n as [|n IH]; intros cols Hc F.
  - cbn [pop_rows seq map]. rewrite pop_row_short by assumption. now destruct cols.
  - rewrite pop_rows_S by exact Hc. rewrite (pop_row_spec d cols n F). rewrite IH.
    + cbn [seq map]. f_equal. rewrite <- seq_shift, map_map. apply map_ext. intros i. rewrite map_map. apply map_ext.
      intros [k vs]. cbn [fst snd]. destruct vs; [destruct i|]; reflexivity.
    + destruct cols; [congruence|discriminate].
    + rewrite Forall_map. eapply Forall_impl; [|exact F]. intros [k vs]; cbn [snd]. intros E. destruct vs; [discriminate|]. cbn in *. lia.
Qed.
Lemma first_len_spec {A B} (cols : list (A * list B)) n : cols <> [] -> Forall (fun e => length (snd e) = n) cols ->
  first_len cols = S n.
Proof. intros H F. destruct F as [|[k vs] cols Hk _]; [congruence|]. cbn in *. lia. Qed.

Lemma mapM_map {A B} (f : A -> res B) (g : A -> B) l : (forall x, In x l -> f x = Ok (g x)) -> mapM f l = Ok (map g l).
Proof.
  induction l as [|a l IH]; intros H; [reflexivity|]. cbn [mapM map]. rewrite (H a) by now left. cbn [rbind].
  rewrite IH by (intros; apply H; now right). reflexivity.
Qed.

Lemma room_rows b : b_rows b < 2 ^ 57 -> (ISIZE_MAX <? ROW_ITER_ENTRY * b_rows b) = false.
Proof. unfold ISIZE_MAX, ROW_ITER_ENTRY. intros H. destruct (N.ltb_spec (2 ^ 63 - 1) (56 * b_rows b)); [lia|reflexivity]. Qed.
Lemma take_iter_spec b : b_rows b < 2 ^ 57 -> b_data b <> [] -> full b -> typed b ->
  take_iter_rows b = Ok (map (fun i => map (fun e => (fst e, strip_low_cardinality (type_of b (fst e)), nth i (snd e) VNull)) (b_data b))
                             (seq 0 (N.to_nat (b_rows b)))).
Proof.
  intros Hroom Hne Hf Ht. unfold take_iter_rows. rewrite (room_rows b Hroom).
  rewrite (mapM_map _ (fun e => ((fst e, strip_low_cardinality (type_of b (fst e))), snd e))).
  2:{ intros [k vs] Hi. cbn [fst snd]. unfold type_of. destruct (im_get k (b_types b)) eqn:E; [reflexivity|].
      exfalso. apply (Ht k); [|exact E]. apply (in_map fst) in Hi. exact Hi. }
  cbn [rbind]. set (cols := map _ (b_data b)).
  assert (Hc : cols <> []) by (unfold cols; destruct (b_data b); [congruence|discriminate]).
  assert (F : Forall (fun e => length (snd e) = N.to_nat (b_rows b)) cols).
  { unfold cols. rewrite Forall_map. eapply Forall_impl; [|exact Hf]. intros [k vs]; unfold lenN; cbn [fst snd]. lia. }
  rewrite (first_len_spec cols _ Hc F), (pop_rows_spec VNull _ cols Hc F). apply (f_equal Ok). 
  apply map_ext. intros i. unfold cols. rewrite map_map. apply map_ext. intros [k vs]. reflexivity.
Qed.

Lemma fold_insert_new {A} (row : list (text * A)) : forall m, NoDup (im_keys m ++ im_keys row) ->
  fold_left (fun m kv => im_insert (fst kv) (snd kv) m) row m = m ++ row.
Proof.
  induction row as [|[k a] row IH]; intros m Hn; cbn [fold_left fst snd]; [now rewrite app_nil_r|].
  cbn [im_keys map fst] in Hn. assert (Hk := NoDup_remove_2 _ _ _ Hn). rewrite in_app_iff in Hk.
  rewrite im_insert_new by tauto. rewrite IH; [now rewrite <- app_assoc|].
  unfold im_keys in *. rewrite map_app, <- app_assoc. exact Hn.
Qed.

Lemma into_iter_spec b : b_data b <> [] -> NoDup (im_keys (b_data b)) -> full b -> typed b ->
  into_iter_rows b = Ok (map (fun i => map (fun e => (fst e, (type_of b (fst e), nth i (snd e) VNull))) (b_data b))
                             (seq 0 (N.to_nat (b_rows b)))).
Proof.
  intros Hne Hnd Hf Ht. unfold into_iter_rows.
  rewrite (mapM_map _ (fun e => (fst e, map (fun v => (type_of b (fst e), v)) (snd e)))).
  2:{ intros [k vs] Hi. cbn [fst snd]. unfold type_of. destruct (im_get k (b_types b)) eqn:E; [reflexivity|].
      exfalso. apply (Ht k); [|exact E]. apply (in_map fst) in Hi. exact Hi. }
  cbn [rbind]. set (cols := map _ (b_data b)).
  assert (Hc : cols <> []) by (unfold cols; destruct (b_data b); [congruence|discriminate]).
  assert (F : Forall (fun e => length (snd e) = N.to_nat (b_rows b)) cols).
  { unfold cols. rewrite Forall_map. eapply Forall_impl; [|exact Hf]. intros [k vs]; unfold lenN; cbn [fst snd]. rewrite map_length. lia. }
  rewrite (first_len_spec cols _ Hc F), (pop_rows_spec (TString, VNull) _ cols Hc F). rewrite map_map. apply (f_equal Ok).
  apply map_ext_in. intros i Hi. apply in_seq in Hi. rewrite fold_insert_new.
  - cbn [app]. unfold cols. rewrite map_map. apply map_ext_in. intros [k vs] Hin. cbn [fst snd]. f_equal.
    rewrite (nth_indep _ _ (type_of b k, VNull)).
    + apply (map_nth (fun v => (type_of b k, v))).
    + rewrite map_length. pose proof (proj1 (Forall_forall _ _) Hf _ Hin) as Hl. cbv beta in Hl. unfold lenN in Hl. cbn [snd] in Hl. lia.
  - cbn [app im_keys map]. unfold cols, im_keys. rewrite !map_map. cbn [fst]. exact Hnd.
Qed.

(* ---------------- row iterators over columns of different lengths ---------------- *)
Lemma row_at_some data i : Forall (fun e : text * list value => (i < length (snd e))%nat) data ->
  row_at data (N.of_nat i) = Some (map (fun e => (fst e, nth i (snd e) VNull)) data).
Proof.
  intros H. induction H as [|[k vs] data Hk _ IH]; [reflexivity|]. cbn [row_at map fst snd] in *.
  unfold get_at. rewrite nthN_nth, Nat2N.id, (nth_error_nth' vs VNull) by exact Hk. now rewrite IH.
Qed.
Lemma row_at_none data i : Exists (fun e : text * list value => (length (snd e) <= i)%nat) data -> row_at data (N.of_nat i) = None.
Proof.
  intros H. induction H as [[k vs] data Hk|[k vs] data _ IH]; cbn [row_at fst snd] in *; unfold get_at; rewrite nthN_nth, Nat2N.id.
  - now rewrite (proj2 (nth_error_None vs i) Hk).
  - rewrite IH. now destruct (nth_error vs i).
Qed.
Lemma iter_from_ragged data n : shortest data n -> forall m i, (i <= n)%nat ->
  iter_rows_from data (N.of_nat i) m = map (fun i => map (fun e => (fst e, nth i (snd e) VNull)) data) (seq i (Nat.min m (n - i))).
Proof.
  intros [L X]. induction m as [|m IH]; intros i Hi; [reflexivity|]. cbn [iter_rows_from].
  destruct (Nat.eq_dec i n) as [->|NE].
  - rewrite row_at_none; [|revert X; apply Exists_impl; intros e E; lia]. rewrite Nat.sub_diag. reflexivity.
  - rewrite row_at_some; [|revert L; apply Forall_impl; intros e E; lia].
    replace (Nat.min (S m) (n - i)) with (S (Nat.min m (n - S i))) by lia. cbn [seq map]. f_equal.
    replace (N.of_nat i + 1) with (N.of_nat (S i)) by lia. apply IH. lia.
Qed.
Lemma iter_rows_ragged b n : shortest (b_data b) n ->
  iter_rows b = map (fun i => map (fun e => (fst e, nth i (snd e) VNull)) (b_data b)) (seq 0 (Nat.min (N.to_nat (b_rows b)) n)).
Proof. intros H. unfold iter_rows. change 0 with (N.of_nat 0). rewrite (iter_from_ragged _ n H) by lia. now rewrite Nat.sub_0_r. Qed.

Lemma pop_row_some {A B} (d : B) (cols : list (A * list B)) : Forall (fun e => (0 < length (snd e))%nat) cols ->
  pop_row cols = Some (map (fun e => (fst e, nth 0 (snd e) d)) cols, map (fun e => (fst e, tl (snd e))) cols).
Proof.
  induction 1 as [|[k vs] cols Hk _ IH]; [reflexivity|]. cbn [pop_row fst snd] in *. destruct vs as [|v vs]; [cbn in Hk; lia|].
  rewrite IH. reflexivity.
Qed.
Lemma pop_row_none {A B} (cols : list (A * list B)) : Exists (fun e => length (snd e) = 0%nat) cols -> pop_row cols = None.
Proof.
  induction 1 as [[k vs] cols Hk|[k vs] cols _ IH]; cbn [pop_row fst snd] in *.
  - destruct vs; [reflexivity|discriminate].
  - destruct vs; [reflexivity|]. now rewrite IH.
Qed.
Lemma pop_rows_ragged {A B} (d : B) : forall n f (cols : list (A * list B)), shortest cols n -> (n < f)%nat ->
  pop_rows f cols = map (fun i => map (fun e => (fst e, nth i (snd e) d)) cols) (seq 0 n).
Proof.
  induction n as [|n IH]; intros f cols [L X] Hf; (destruct f as [|f]; [lia|]).
  - assert (Hc : cols <> []) by (intros ->; inversion X). rewrite pop_rows_S by exact Hc. now rewrite pop_row_none.
  - assert (Hc : cols <> []) by (intros ->; inversion X). rewrite pop_rows_S by exact Hc.
    rewrite (pop_row_some d) by (revert L; apply Forall_impl; intros e E; lia). rewrite IH; [| |lia].
    + cbn [seq map]. f_equal. rewrite <- seq_shift, map_map. apply map_ext. intros i. rewrite map_map. apply map_ext.
      intros [k vs]. cbn [fst snd]. destruct vs; [destruct i|]; reflexivity.
    + split.
      * rewrite Forall_map. revert L. apply Forall_impl. intros [k vs]; cbn [fst snd]. destruct vs; cbn [length tl]; lia.
      * rewrite Exists_exists in *. destruct X as ([k vs] & I & E). exists (k, tl vs). split.
        -- apply in_map_iff. exists (k, vs). auto.
        -- cbn [snd] in *. destruct vs; cbn [length tl] in *; lia.
Qed.
Lemma first_len_ragged {A B} (cols : list (A * list B)) n : shortest cols n -> (n < first_len cols)%nat.
Proof. intros [L X]. destruct cols as [|[k vs] cols]; [inversion X|]. inversion L; subst. cbn [first_len snd] in *. lia. Qed.
Lemma shortest_map {A B C D} (f : A * list B -> C * list D) (cols : list (A * list B)) n :
  (forall e, length (snd (f e)) = length (snd e)) -> shortest cols n -> shortest (map f cols) n.
Proof.
  intros H [L X]. split.
  - rewrite Forall_map. revert L. apply Forall_impl. intros e. now rewrite H.
  - rewrite Exists_exists in *. destruct X as (e & I & E). exists (f e). split; [now apply in_map|]. now rewrite H.
Qed.

Lemma take_iter_ragged b n : b_rows b < 2 ^ 57 -> shortest (b_data b) n -> typed b ->
  take_iter_rows b = Ok (map (fun i => map (fun e => (fst e, strip_low_cardinality (type_of b (fst e)), nth i (snd e) VNull)) (b_data b)) (seq 0 n)).
Proof.
  intros Hroom Hs Ht. unfold take_iter_rows. rewrite (room_rows b Hroom).
  rewrite (mapM_map _ (fun e => ((fst e, strip_low_cardinality (type_of b (fst e))), snd e))).
  2:{ intros [k vs] Hi. cbn [fst snd]. unfold type_of. destruct (im_get k (b_types b)) eqn:E; [reflexivity|].
      exfalso. apply (Ht k); [|exact E]. apply (in_map fst) in Hi. exact Hi. }
  cbn [rbind]. set (cols := map _ (b_data b)). assert (F : shortest cols n) by (apply shortest_map; [reflexivity|exact Hs]).
  rewrite (pop_rows_ragged VNull n _ cols F (first_len_ragged cols n F)). apply (f_equal Ok).
  apply map_ext. intros i. unfold cols. rewrite map_map. apply map_ext. intros [k vs]. reflexivity.
Qed.
Lemma into_iter_ragged b n : NoDup (im_keys (b_data b)) -> shortest (b_data b) n -> typed b ->
  into_iter_rows b = Ok (map (fun i => map (fun e => (fst e, (type_of b (fst e), nth i (snd e) VNull))) (b_data b)) (seq 0 n)).
Proof.
  intros Hnd Hs Ht. unfold into_iter_rows.
  rewrite (mapM_map _ (fun e => (fst e, map (fun v => (type_of b (fst e), v)) (snd e)))).
  2:{ intros [k vs] Hi. cbn [fst snd]. unfold type_of. destruct (im_get k (b_types b)) eqn:E; [reflexivity|].
      exfalso. apply (Ht k); [|exact E]. apply (in_map fst) in Hi. exact Hi. }
  cbn [rbind]. set (cols := map _ (b_data b)).
  assert (F : shortest cols n) by (apply shortest_map; [intros e; cbn [snd]; apply map_length|exact Hs]).
  rewrite (pop_rows_ragged (TString, VNull) n _ cols F (first_len_ragged cols n F)), map_map. apply (f_equal Ok).
  apply map_ext_in. intros i Hi. apply in_seq in Hi. destruct Hs as [L _]. rewrite fold_insert_new.
  - cbn [app]. unfold cols. rewrite map_map. apply map_ext_in. intros [k vs] Hin. cbn [fst snd]. f_equal.
    rewrite (nth_indep _ _ (type_of b k, VNull)).
    + apply (map_nth (fun v => (type_of b k, v))).
    + rewrite map_length. pose proof (proj1 (Forall_forall _ _) L _ Hin) as Q. cbn [snd] in Q. lia.
  - cbn [app]. unfold im_keys, cols. rewrite !map_map. cbn [fst]. exact Hnd.
Qed.

(* ---------------- row counts ---------------- *)
Lemma take_iter_panics b : typed b -> (take_iter_rows b = Panic <-> 2 ^ 63 <= 56 * b_rows b).
Proof.
  intros Ht. unfold take_iter_rows, ISIZE_MAX, ROW_ITER_ENTRY. destruct (N.ltb_spec (2 ^ 63 - 1) (56 * b_rows b)); [split; [lia|reflexivity]|].
  split; [|lia].
  rewrite (mapM_map _ (fun e => ((fst e, strip_low_cardinality (type_of b (fst e))), snd e))); [discriminate|].
  intros [k vs] Hi. cbn [fst snd]. unfold type_of. destruct (im_get k (b_types b)) eqn:E; [reflexivity|].
  exfalso. apply (Ht k); [|exact E]. apply (in_map fst) in Hi. exact Hi.
Qed.
Lemma mapM_panics {A B} (f : A -> res B) l : (forall x, f x = Panic \/ exists y, f x = Ok y) ->
  (mapM f l = Panic <-> exists x, In x l /\ f x = Panic).
Proof.
  intros D. induction l as [|x l IH]; cbn [mapM]; [split; [discriminate|intros (x & [] & _)]|].
  destruct (D x) as [E|[y E]]; rewrite E; cbn [rbind].
  - split; [|reflexivity]. intros _. exists x. split; [now left|exact E].
  - split.
    + intros H. assert (Q : mapM f l = Panic) by (destruct (mapM f l); [discriminate H|discriminate H|reflexivity]). apply IH in Q as (z & Z & F). exists z. split; [now right|exact F].
    + intros (z & [<-|Z] & F); [congruence|]. assert (Q : mapM f l = Panic) by (apply IH; eauto). now rewrite Q.
Qed.
Lemma untyped_iff {B} b (g : text * list value -> ty -> B) :
  (mapM (fun e : text * list value => match im_get (fst e) (b_types b) with Some t => Ok (g e t) | None => Panic end) (b_data b) <> Panic <-> typed b).
Proof.
  rewrite mapM_panics by (intros x; destruct (im_get (fst x) (b_types b)); eauto). split.
  - intros H k Hk E. apply H. apply in_map_iff in Hk as (e & <- & He). exists e. split; [exact He|]. now rewrite E.
  - intros T (e & He & E). destruct (im_get (fst e) (b_types b)) eqn:G; [discriminate E|]. apply (T (fst e)); [now apply (in_map fst)|exact G].
Qed.
Lemma into_iter_panics b : into_iter_rows b <> Panic <-> typed b.
Proof.
  rewrite <- (untyped_iff b (fun e t => (fst e, map (fun v => (t, v)) (snd e)))). unfold into_iter_rows.
  destruct (mapM _ (b_data b)); cbn [rbind]; split; congruence.
Qed.
Lemma take_iter_panics_iff b : take_iter_rows b <> Panic <-> typed b /\ 56 * b_rows b < 2 ^ 63.
Proof.
  split.
  - intros H. assert (T : typed b).
    { apply (untyped_iff b (fun e t => ((fst e, strip_low_cardinality t), snd e))). intros E. apply H. unfold take_iter_rows. destruct (ISIZE_MAX <? _); [reflexivity|]. now rewrite E. }
    split; [exact T|]. destruct (N.ltb_spec (56 * b_rows b) (2 ^ 63)) as [L|G]; [exact L|]. apply (take_iter_panics b T) in G. now rewrite G in H.
  - intros [T L] E. apply (take_iter_panics b T) in E. apply N.lt_nge in L. now apply L.
Qed.
Local Lemma ok_inj_ {A} (x y : A) : Ok x = Ok y -> x = y.
Proof. now intros [= ->]. Qed.
Lemma read_block_countable U D rev inp b rest : read_block U D rev inp = Ok (b, rest) -> b_types b <> [] -> b_rows b <= 2 ^ 30.
Proof.
  unfold read_block. unfold rdbind at 1. destruct ((if 0 <? rev then read_info else rret default_info) inp) as [[info i1]| |]; cbn [rbind]; try discriminate.
  unfold rdbind at 1. destruct (read_var_uint i1) as [[columns i2]| |]; cbn [rbind]; try discriminate.
  unfold rdbind at 1. destruct (read_var_uint i2) as [[rows i3]| |]; cbn [rbind]; try discriminate.
  unfold rdbind at 1. destruct (read_n (N.to_nat columns) (read_column U D rows) i3) as [[cols i4]| |] eqn:E; cbn [rbind]; try discriminate.
  intros H. apply ok_inj_ in H. apply pair_equal_spec in H as [<- <-].
  assert (R : forall cols b0, b_rows (fold_left add_column cols b0) = b_rows b0) by (intros l; induction l as [|[[? ?] ?] l IH]; intros b0; [reflexivity|]; cbn [fold_left]; now rewrite IH).
  rewrite R. cbn [b_rows]. intros NE.
  assert (NC : (N.to_nat columns <> 0)%nat).
  { intros Z. rewrite Z in E. cbn [read_n] in E. apply ok_inj_ in E. apply pair_equal_spec in E as [<- _]. now apply NE. }
  destruct (N.to_nat columns) as [|n]; [congruence|]. cbn [read_n] in E.
  unfold rdbind at 1 in E. destruct (read_column U D rows i3) as [[c i5]| |] eqn:EC; cbn [rbind] in E; try discriminate E.
  unfold read_column in EC. unfold rdbind at 1 in EC. destruct (read_utf8_string i3) as [[nm i6]| |]; cbn [rbind] in EC; try discriminate EC.
  unfold rdbind at 1 in EC. destruct (read_utf8_string i6) as [[tn i7]| |]; cbn [rbind] in EC; try discriminate EC.
  unfold rdbind at 1 in EC. destruct (lift (parse_ty U D tn) i7) as [[t i8]| |]; cbn [rbind] in EC; try discriminate EC.
  destruct (N.ltb_spec 0 rows) as [L|L]; [|lia].
  destruct (N.ltb_spec (2 ^ 30) rows) as [B|B]; [|exact B]. exfalso.
  unfold rdbind in EC. destruct (deser_prefix t i8) as [[u i9]| |]; cbn [rbind] in EC; try discriminate EC.
  rewrite (too_many_rows t rows i9 B) in EC. discriminate EC.
Qed.
