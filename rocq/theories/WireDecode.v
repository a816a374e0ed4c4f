(** Whatever bytes conform to the Native format (WireSpec.v), the reader returns the column. *)
From Verif Require Import Base Io IoProofs Types Ser Deser ColumnSpec ColumnProofs ColumnRoundtrip LowCardProofs WireProofs DecodeProofs WireSpec.

Lemma number_le_val bs : number bs = le_val bs.
Proof. induction bs as [|b r IH]; [reflexivity|]. cbn [number le_val]. now rewrite IH. Qed.

Lemma read_word k n x bs rest : N.of_nat k = n -> word n x bs -> read_le k (bs ++ rest) = Ok (x, rest).
Proof.
  intros E (L & _ & V). unfold read_le, rdbind. rewrite read_exact_app' by congruence. cbn [rbind]. unfold rret.
  now rewrite <- number_le_val, V.
Qed.

Lemma read_parts {A} (dec : rd A) (R : A -> list N -> Prop) :
  (forall a p, R a p -> forall rest, dec (p ++ rest) = Ok (a, rest)) ->
  forall xs parts, Forall2 R xs parts -> forall rest,
  read_n (N.to_nat (lenN xs)) dec (concat parts ++ rest) = Ok (xs, rest).
Proof.
  intros H xs parts F. induction F as [|x p xs parts Hx _ IH]; intros rest; [reflexivity|].
  replace (N.to_nat (lenN (x :: xs))) with (S (N.to_nat (lenN xs))) by (unfold lenN; cbn [length]; lia).
  cbn [read_n concat]. unfold rdbind. rewrite <- app_assoc, (H _ _ Hx). cbn [rbind]. rewrite IH. reflexivity.
Qed.

Lemma read_words k n xs bs rest : N.of_nat k = n -> words n xs bs ->
  read_n (N.to_nat (lenN xs)) (read_le k) (bs ++ rest) = Ok (xs, rest).
Proof. intros E (parts & F & ->). apply (read_parts _ (word n)); [|exact F]. intros a p Ha r. now apply (read_word k n). Qed.

Lemma Forall2_lenN {A B} (R : A -> B -> Prop) l m : Forall2 R l m -> lenN l = lenN m.
Proof. induction 1 as [|x y l m _ _ IH]; [reflexivity|]. now rewrite !lenN_cons, IH. Qed.

Lemma twos_s2u bits x : 0 < bits -> in_signed bits x -> twos bits x = s2u bits x.
Proof.
  intros Hb [Hl Hh]. unfold twos, s2u. pose proof (pow_split bits Hb) as HP. pose proof (Zpow_of_N bits) as HQ.
  destruct (Z.ltb_spec x 0) as [Hx|Hx].
  - rewrite <- (Z.mod_unique x (2 ^ Z.of_N bits) (-1) (x + 2 ^ Z.of_N bits)) by lia. now rewrite HQ.
  - rewrite Z.mod_small by lia. reflexivity.
Qed.

Lemma read_signed_word w n x bs rest : n = iw_width w -> signedb (ibits w) x = true -> word n (twos (ibits w) x) bs ->
  read_signed w (bs ++ rest) = Ok (x, rest).
Proof.
  intros -> Hs H. apply signedb_spec in Hs. unfold read_signed, rdbind.
  rewrite (read_word _ (iw_width w) (twos (ibits w) x)) by (assumption || (destruct w; reflexivity)). cbn [rbind]. unfold rret.
  rewrite twos_s2u by (assumption || apply ibits_pos). rewrite u2s_s2u by (assumption || apply ibits_pos). reflexivity.
Qed.

Lemma dec_scalar t v bs rest : scalar_wire t v bs -> dec_sized t (bs ++ rest) = Ok (v, rest).
Proof.
  intros (Hs & Hr & Hw).
  destruct t as [w| |w| | | | | | | | | | | | | | | | | | | | | | | | | | |]; try destruct w;
    destruct v as [w'| |w'| | | | | | | | | | | | | | | | | | | | | | | | |]; try discriminate Hs; try destruct w';
    try discriminate Hs; cbn [dec_sized representable same_scalar] in *; unfold rdbind;
    repeat match goal with
           | H : _ && _ = true |- _ => apply andb_true_iff in H as [? ?]
           | H : (?a =? ?b) = true |- _ => apply N.eqb_eq in H; subst b
           end;
    try (erewrite read_signed_word; [reflexivity| |exact Hr|exact Hw]; reflexivity);
    try (erewrite read_word; [reflexivity| |exact Hw]; reflexivity);
    try (subst bs; apply bytes_of_len_spec in Hr as [L _]; unfold read_256, rdbind;
         rewrite read_exact_app' by (now rewrite lenN_rev, ?L); cbn [rbind]; unfold rret; now rewrite ?rev_involutive).
  - (* Uuid *) destruct Hw as (hi & lo & H1 & H2 & ->). rewrite <- app_assoc.
    rewrite (read_word 8 8 _ hi _ eq_refl H1). cbn [rbind]. rewrite (read_word 8 8 _ lo _ eq_refl H2). cbn [rbind]. unfold rret.
    f_equal. f_equal. f_equal. rewrite N.lor_comm, lor_shiftl_add by (apply N.mod_lt; discriminate).
    pose proof (N.div_mod n (2 ^ 64) ltac:(discriminate)) as E. rewrite N.mul_comm in E. rewrite E at 3. apply N.add_comm.
  - (* Ipv6 *) subst bs. apply bytes_of_len_spec in Hr as [L _]. rewrite read_exact_app' by (now rewrite L). reflexivity.
Qed.

Lemma dec_string_wire lim v bs rest : lim <= 2 ^ 30 -> string_wire lim v bs -> dec_string TString (bs ++ rest) = Ok (v, rest).
Proof.
  intros Hl (s & -> & L & _ & ->). cbn [dec_string]. unfold rdbind. rewrite <- write_var_uint_leb128 by lia.
  fold (write_string s). rewrite read_write_string by (unfold MAX_STRING_SIZE; lia). reflexivity.
Qed.

Lemma dec_fixed_wire n v bs rest : fixed_wire n v bs -> dec_string (TFixedString n) (bs ++ rest) = Ok (v, rest).
Proof.
  intros (L & Hn & _ & ->). cbn [dec_string]. unfold ISIZE_MAX. destruct (N.ltb_spec (2 ^ 63 - 1) n); [lia|]. unfold rdbind. rewrite read_exact_app' by (now rewrite L). cbn [rbind]. unfold rret.
  now rewrite cut_nul_until.
Qed.

Lemma running_offsets acc l : running acc l = offsets_from acc l.
Proof. revert acc; induction l as [|n r IH]; intros acc; [reflexivity|]. cbn [running offsets_from]. now rewrite IH. Qed.
Lemma running_length acc l : lenN (running acc l) = lenN l.
Proof. unfold lenN. now rewrite running_offsets, offsets_length. Qed.

Lemma words_nil n bs : words n [] bs -> bs = [].
Proof. intros (parts & F & ->). now inversion F. Qed.

(** Arrays of any kind. *)
Lemma read_array_wire {A} (inner : N -> rd (list value)) (im : value -> res A) (VI : A -> value) (mk : list A -> value)
    (rows : list (list A)) offs items rest :
  (forall a, im (VI a) = Ok a) ->
  words 8 (running 0 (map lenN rows)) offs ->
  (forall rest, inner (lenN (concat rows)) (items ++ rest) = Ok (map VI (concat rows), rest)) ->
  (rows = [] -> items = []) ->
  deser_array_generic inner im mk (lenN rows) ((offs ++ items) ++ rest) = Ok (map mk rows, rest).
Proof.
  intros Him Hw Hin Hnil. unfold deser_array_generic. destruct rows as [|r0 rows0].
  { rewrite (words_nil _ _ Hw), (Hnil eq_refl). reflexivity. }
  rewrite lenN_nonzero by discriminate. remember (r0 :: rows0) as rows eqn:Hr.
  assert (Hne : rows <> []) by (rewrite Hr; discriminate). clear Hr r0 rows0.
  unfold rdbind. rewrite <- app_assoc.
  replace (lenN rows) with (lenN (running 0 (map lenN rows))) by (now rewrite running_length, lenN_map).
  rewrite (read_words 8 8 _ _ _ eq_refl Hw). cbn [rbind].
  rewrite running_offsets, offsets_last, N.add_0_l by assumption. rewrite Hin. cbn [rbind].
  assert (E : mapM im (map VI (concat rows)) = Ok (concat rows)).
  { generalize (concat rows). intros l. induction l as [|a l IH]; [reflexivity|]. cbn [map mapM]. rewrite Him. cbn [rbind]. now rewrite IH. }
  rewrite E. cbn [rbind]. rewrite split_offsets_ok. reflexivity.
Qed.

Lemma apply_mask_rows mask stored vs : null_rows mask stored vs ->
  lenN mask = lenN vs /\ lenN stored = lenN vs /\ apply_mask mask stored = Ok vs.
Proof.
  induction 1 as [|m s v ms ss vs He _ (L1 & L2 & IH)]; [repeat split|].
  rewrite !lenN_cons. split; [lia|]. split; [lia|]. cbn [apply_mask]. rewrite IH. cbn [rbind].
  destruct He as [_ [[Hm ->]|[-> ->]]]; [|reflexivity].
  now rewrite (proj2 (N.eqb_neq m 0) Hm).
Qed.

(* ---------- tuples ---------- *)
Lemma push_column_cols (acc : list (list value)) c : length acc = length c ->
  push_column acc c = Ok (map (fun i => nth i acc [] ++ [nth i c VNull]) (seq 0 (length c))).
Proof.
  intros H. pose proof (push_column_ok acc (fun v : value => v) c H) as E. rewrite map_id in E. rewrite E. f_equal. clear E.
  revert c H; induction acc as [|a acc IH]; intros [|x c] H; try discriminate H; [reflexivity|].
  cbn [zip_with length seq map nth]. f_equal. rewrite IH by (now injection H). rewrite <- seq_shift, map_map. reflexivity.
Qed.

Lemma nth_map_seq {A} (f : nat -> A) n i d : (i < n)%nat -> nth i (map f (seq 0 n)) d = f i.
Proof. intros H. rewrite (nth_indep _ d (f 0%nat)) by (rewrite map_length, seq_length; exact H). rewrite map_nth, seq_nth by exact H. reflexivity. Qed.

(* ---------- LowCardinality ---------- *)
Lemma width_code_iw code w (upd : bool) : width_code code w ->
  exists iw, index_width (code + 512 + (if upd then 1024 else 0)) = Some iw /\ N.of_nat (ibytes iw) = w.
Proof.
  intros [[-> ->]|[[-> ->]|[[-> ->]|[-> ->]]]]; destruct upd;
    [exists I8|exists I8|exists I16|exists I16|exists I32|exists I32|exists I64|exists I64]; split; reflexivity.
Qed.
Lemma code_bits code w (upd : bool) : width_code code w ->
  has_bit (code + 512 + (if upd then 1024 else 0)) HAS_ADDITIONAL_KEYS_BIT = true /\
  has_bit (code + 512 + (if upd then 1024 else 0)) NEED_GLOBAL_DICTIONARY_BIT = false.
Proof. intros [[-> _]|[[-> _]|[[-> _]|[-> _]]]]; destruct upd; split; reflexivity. Qed.

Lemma lookup_entries nullable keys idx vs : Forall2 (dict_entry nullable keys) idx vs ->
  mapM (lc_lookup false true nullable None (Some keys)) idx = Ok (map (fun v => [v]) vs).
Proof.
  induction 1 as [|i v idx vs H _ IH]; [reflexivity|]. cbn [mapM map]. unfold dict_entry in H.
  cbn [lc_lookup]. destruct (nullable && (i =? 0)).
  - subst v. cbn [rbind]. rewrite IH. reflexivity.
  - unfold get_or_illegal. rewrite nthN_nth, H. cbn [rbind]. rewrite IH. reflexivity.
Qed.
Lemma lookup_gd nullable keys gd idx : mapM (lc_lookup false true nullable gd (Some keys)) idx = mapM (lc_lookup false true nullable None (Some keys)) idx.
Proof. induction idx as [|i l IH]; [reflexivity|]. cbn [mapM]. rewrite IH. reflexivity. Qed.
Lemma concat_singles {A} (l : list A) : concat (map (fun v => [v]) l) = l.
Proof. induction l as [|x l IH]; [reflexivity|]. cbn [map concat app]. now rewrite IH. Qed.

Definition lc_reads (t : ty) (vs : list value) (bs : list N) : Prop :=
  forall fuel st out rest, num_pending st = 0 -> (length bs < fuel)%nat ->
  lc_loop fuel (deser (strip_null t)) (is_nullable t) (lenN vs) st out (bs ++ rest) = Ok (out ++ vs, rest).

Definition col_reads (t : ty) (vs : list value) (bs : list N) : Prop :=
  lenN vs <= 2 ^ 30 /\ (vs = [] -> bs = []) /\
  forall rest, deser t (lenN vs) (bs ++ rest) = Ok (vs, rest).
Definition cols_read (ts : list ty) (cols : list (list value)) (bs : list N) : Prop :=
  forall n, Forall (fun c => length c = n) cols -> (n = 0%nat -> bs = []) /\ forall acc rest, length acc = n ->
  deser_cols (N.of_nat n) ts acc (bs ++ rest) =
  Ok (map (fun i => nth i acc [] ++ map (fun c => nth i c VNull) cols) (seq 0 n), rest).

Lemma map_self {A} (l : list A) d : map (fun i => nth i l d) (seq 0 (length l)) = l.
Proof. induction l as [|x l IH]; [reflexivity|]. cbn [length seq map nth]. f_equal. rewrite <- seq_shift, map_map. exact IH. Qed.

Theorem wire_decode :
  (forall t vs bs, encodes (2 ^ 30) t vs bs -> col_reads t vs bs) /\
  (forall ts cols bs, encodes_columns (2 ^ 30) ts cols bs -> cols_read ts cols bs) /\
  (forall t vs bs, dictionaries (2 ^ 30) t vs bs -> lenN vs <= 2 ^ 30 -> (vs = [] -> bs = []) /\ lc_reads t vs bs).
Proof.
  apply wire_mutind.
  - (* scalar *) intros t vs parts Hl F Hw. split; [assumption|]. split.
    { intros ->. now inversion F. }
    intros rest. rewrite deser_plain by (destruct t; try reflexivity; exfalso; now apply Hw).
    rewrite check_rows_ok by assumption.
    replace (dec_leaf t) with (dec_sized t) by (destruct t; try reflexivity; exfalso; now apply Hw).
    apply (read_parts _ (scalar_wire t)); [|exact F]. intros a p H r. now apply dec_scalar.
  - intros vs parts Hl F. split; [assumption|]. split; [intros ->; now inversion F|].
    intros rest. rewrite deser_plain by reflexivity. rewrite check_rows_ok by assumption.
    apply (read_parts _ (string_wire (2 ^ 30))); [|exact F]. intros a p H r. now apply (dec_string_wire (2 ^ 30)).
  - intros n vs parts Hl F. split; [assumption|]. split; [intros ->; now inversion F|].
    intros rest. rewrite deser_plain by reflexivity. rewrite check_rows_ok by assumption.
    apply (read_parts _ (fixed_wire n)); [|exact F]. intros a p H r. now apply dec_fixed_wire.
  - (* array *) intros t rows offs items Hl Hw _ (_ & Hn & IH). unfold col_reads. rewrite lenN_map.
    assert (Hnil : rows = [] -> items = []) by (intros ->; now apply Hn).
    split; [assumption|]. split.
    { intros E. apply map_eq_nil in E as ->. rewrite (words_nil _ _ Hw), Hnil by reflexivity. reflexivity. }
    intros rest. cbn [deser]. rewrite check_rows_ok by assumption.
    apply (read_array_wire _ _ (fun v => v)); try assumption; [reflexivity|]. intros r. rewrite IH. now rewrite map_id.
  - (* map *) intros k t rows offs kbs vbs Hl HL Hw _ (_ & Hnk & IHk) _ (_ & Hnv & IHv). unfold col_reads. rewrite lenN_map.
    split; [assumption|]. split.
    { intros E. apply map_eq_nil in E as ->. rewrite (words_nil _ _ Hw), Hnk, Hnv by reflexivity. reflexivity. }
    intros rest. cbn [deser]. rewrite check_rows_ok by assumption. destruct rows as [|r0 rows0].
    { rewrite (words_nil _ _ Hw), Hnk, Hnv by reflexivity. reflexivity. }
    rewrite lenN_nonzero by discriminate. remember (r0 :: rows0) as rows eqn:Hr.
    assert (Hne : map fst rows <> []) by (rewrite Hr; discriminate). clear Hr r0 rows0.
    unfold rdbind. rewrite <- !app_assoc.
    replace (lenN rows) with (lenN (running 0 (map (fun r : list value * list value => lenN (fst r)) rows))) by (now rewrite running_length, lenN_map).
    rewrite (read_words 8 8 _ _ _ eq_refl Hw). cbn [rbind].
    assert (Hlast : last (running 0 (map (fun r : list value * list value => lenN (fst r)) rows)) 0 = lenN (concat (map fst rows))).
    { rewrite running_offsets, <- (map_map fst lenN), offsets_last by assumption. lia. }
    assert (Heq : lenN (concat (map fst rows)) = lenN (concat (map snd rows))).
    { clear -HL. induction HL as [|[a b] l H _ IH]; [reflexivity|]. cbn [map fst snd concat]. rewrite !lenN_app.
      cbn [fst snd] in H. lia. }
    rewrite Hlast, IHk. cbn [rbind]. rewrite N.eqb_refl. cbn [negb]. rewrite Heq, IHv. cbn [rbind]. rewrite N.eqb_refl. cbn [negb].
    rewrite running_offsets, split_map_ok by assumption. reflexivity.
  - (* tuple *) intros ts n cols bs Hl Hc _ IH. destruct (IH n Hc) as [Hn Hd].
    assert (HL : lenN (tuples_of n cols) = N.of_nat n) by (unfold tuples_of, lenN; now rewrite map_length, seq_length).
    unfold col_reads. rewrite HL. split; [assumption|]. split.
    { intros E. apply Hn. rewrite E in HL. unfold lenN in HL. cbn in HL. lia. }
    intros rest. rewrite deser_tuple_eq, check_rows_ok by assumption. unfold rdbind.
    rewrite Hd by (now rewrite repeat_length, Nat2N.id). cbn [rbind]. unfold rret, tuples_of. f_equal. f_equal. rewrite map_map.
    apply map_ext_in. intros i Hi. f_equal. rewrite nth_repeat. reflexivity.
  - (* nullable *) intros t mask stored vs bs HM _ (Hl & Hn & IH). destruct (apply_mask_rows _ _ _ HM) as (L1 & L2 & A).
    unfold col_reads. rewrite <- L2. split; [assumption|]. split.
    { intros ->. inversion HM; subst. rewrite Hn by reflexivity. reflexivity. }
    intros rest. cbn [deser]. rewrite check_rows_ok by assumption. unfold rdbind. rewrite <- app_assoc.
    rewrite read_exact_app' by congruence. cbn [rbind]. rewrite IH. cbn [rbind]. rewrite A. reflexivity.
  - (* point *) intros ps xs ys Hl Hx Hy. unfold col_reads. rewrite lenN_map. split; [assumption|]. split.
    { intros E. apply map_eq_nil in E as ->. now rewrite (words_nil _ _ Hx), (words_nil _ _ Hy). }
    assert (HF : forall zs bs, words 8 zs bs -> lenN zs <= 2 ^ 30 -> forall rest, deser_float64 (lenN zs) (bs ++ rest) = Ok (map VFloat64 zs, rest)).
    { clear. intros zs bs H Hz rest. unfold deser_float64. rewrite check_rows_ok by assumption. unfold deser_sized. cbn [dec_sized].
      destruct H as (parts & F & ->). revert rest. clear Hz. induction F as [|z p zs parts Hz _ IH]; intros rest; [reflexivity|].
      replace (N.to_nat (lenN (z :: zs))) with (S (N.to_nat (lenN zs))) by (unfold lenN; cbn [length]; lia).
      cbn [read_n concat map]. unfold rdbind at 1 2. rewrite <- app_assoc. rewrite (read_word 8 8 _ _ _ eq_refl Hz). cbn [rbind]. unfold rret at 1. cbn [rbind].
      unfold rdbind at 1. rewrite IH. reflexivity. }
    intros rest. cbn [deser]. rewrite check_rows_ok by assumption. unfold deser_point. rewrite check_rows_ok by assumption.
    unfold rdbind. rewrite <- app_assoc. rewrite <- (lenN_map fst ps) at 1. rewrite HF by (assumption || now rewrite lenN_map). cbn [rbind].
    rewrite <- (lenN_map snd ps) at 1. rewrite HF by (assumption || now rewrite lenN_map). cbn [rbind].
    rewrite !mapM_unwrap_float. cbn [rbind]. do 3 f_equal.
    clear. induction ps as [|[a b] ps IH]; [reflexivity|]. cbn [map combine fst snd]. now rewrite IH.
  - (* ring *) intros rows offs items Hl Hw _ (_ & Hn & IH). unfold col_reads. rewrite lenN_map.
    assert (Hnil : rows = [] -> items = []) by (intros ->; now apply Hn). split; [assumption|]. split.
    { intros E. apply map_eq_nil in E as ->. rewrite (words_nil _ _ Hw), Hnil by reflexivity. reflexivity. }
    intros rest. cbn [deser]. rewrite check_rows_ok by assumption. unfold deser_ring. rewrite check_rows_ok by assumption.
    apply (read_array_wire _ _ VPoint); try assumption; [reflexivity|]. intros r. specialize (IH r). rewrite lenN_map in IH.
    cbn [deser] in IH. unfold check_rows in IH at 1. destruct (_ <? _); [discriminate IH|exact IH].
  - (* polygon *) intros rows offs items Hl Hw _ (_ & Hn & IH). unfold col_reads. rewrite lenN_map.
    assert (Hnil : rows = [] -> items = []) by (intros ->; now apply Hn). split; [assumption|]. split.
    { intros E. apply map_eq_nil in E as ->. rewrite (words_nil _ _ Hw), Hnil by reflexivity. reflexivity. }
    intros rest. cbn [deser]. rewrite check_rows_ok by assumption. unfold deser_polygon. rewrite check_rows_ok by assumption.
    apply (read_array_wire _ _ VRing); try assumption; [reflexivity|]. intros r. specialize (IH r). rewrite lenN_map in IH.
    cbn [deser] in IH. unfold check_rows in IH at 1. destruct (_ <? _); [discriminate IH|exact IH].
  - (* multipolygon *) intros rows offs items Hl Hw _ (_ & Hn & IH). unfold col_reads. rewrite lenN_map.
    assert (Hnil : rows = [] -> items = []) by (intros ->; now apply Hn). split; [assumption|]. split.
    { intros E. apply map_eq_nil in E as ->. rewrite (words_nil _ _ Hw), Hnil by reflexivity. reflexivity. }
    intros rest. cbn [deser]. rewrite check_rows_ok by assumption. unfold deser_multipolygon. rewrite check_rows_ok by assumption.
    apply (read_array_wire _ _ VPolygon); try assumption; [reflexivity|]. intros r. specialize (IH r). rewrite lenN_map in IH.
    cbn [deser] in IH. unfold check_rows in IH at 1. destruct (_ <? _); [discriminate IH|exact IH].
  - (* LowCardinality *) intros t vs bs Hl _ IH. destruct (IH Hl) as [Hn Hd]. split; [assumption|]. split; [assumption|].
    intros rest. rewrite deser_lc_eq, check_rows_ok by assumption. unfold deser_low_card.
    rewrite Hd; [reflexivity|reflexivity|]. rewrite app_length. lia.
  - (* no columns *) intros n Hc. split; [reflexivity|]. intros acc rest <-. cbn [deser_cols]. unfold rret. f_equal. f_equal.
    cbn [app map]. symmetry. rewrite (map_ext _ (fun i => nth i acc [])) by (intros; apply app_nil_r). apply map_self.
  - (* column :: columns *) intros t ts c cols b bs _ (_ & Hnc & IHc) _ IH n Hall.
    inversion Hall as [|? ? Hc Hcols]; subst. destruct (IH (length c) Hcols) as [Hn Hd]. split.
    { intros E. rewrite Hn, Hnc by (assumption || now destruct c). reflexivity. }
    intros acc rest Ha. cbn [deser_cols]. fold (deser_cols (N.of_nat (length c))). unfold rdbind. rewrite <- app_assoc.
    fold (lenN c). rewrite IHc. cbn [rbind]. rewrite push_column_cols by assumption. cbn [rbind].
    change (lenN c) with (N.of_nat (length c)).
    rewrite Hd by (now rewrite map_length, seq_length). f_equal. f_equal. apply map_ext_in. intros i Hi. apply in_seq in Hi.
    rewrite nth_map_seq by lia. rewrite <- app_assoc. reflexivity.
  - (* no dictionary *) intros t _. split; [reflexivity|]. intros fuel st out rest _ Hf. cbn [lenN].
    destruct fuel; [cbn in Hf; lia|]. cbn [lc_loop]. rewrite app_nil_r. reflexivity.
  - (* dictionary *)
    intros t code w upd flags keys nkeys kbs nrows idx ibs vs vs' bs' Hcode Hfl Hnk _ (Hkl & _ & IHk) Hnr Hne Hent Hidx _ IHd Hlen.
    rewrite lenN_app in Hlen. assert (Hv' : lenN vs' <= 2 ^ 30) by lia. destruct (IHd Hv') as [_ Hrest].
    split; [intros E; apply app_eq_nil in E as [-> _]; congruence|].
    intros fuel st out rest Hp Hf. rewrite <- !app_assoc. destruct fuel as [|fuel]; [cbn in Hf; lia|].
    cbn [lc_loop]. rewrite lenN_nonzero by (intros E; apply app_eq_nil in E as [-> _]; congruence).
    rewrite Hp. change (0 =? 0) with true. cbn iota. unfold lc_header, rdbind.
    rewrite (read_word 8 8 _ _ _ eq_refl Hfl). cbn [rbind].
    destruct (width_code_iw code w upd Hcode) as (iw & Hiw & Hww). destruct (code_bits code w upd Hcode) as [Hb1 Hb2].
    rewrite Hiw, Hb1, Hb2. cbn [andb]. unfold rret at 1. cbn [rbind].
    rewrite (read_word 8 8 _ _ _ eq_refl Hnk). cbn [rbind]. rewrite IHk. cbn [rbind]. unfold rret at 1. cbn [rbind].
    rewrite (read_word 8 8 _ _ _ eq_refl Hnr). cbn [rbind]. unfold rret. cbn [rbind num_pending indexed needs_global has_additional gdict adict].
    rewrite lenN_app. replace (N.min (lenN vs + lenN vs') (lenN vs)) with (lenN vs) by lia.
    rewrite check_rows_ok by (unfold within; lia). rewrite <- (Forall2_lenN _ _ _ Hent).
    rewrite (read_words _ w _ _ _ Hww Hidx). cbn [rbind]. rewrite lookup_gd, (lookup_entries _ _ _ _ Hent). cbn [rbind].
    rewrite (Forall2_lenN _ _ _ Hent). replace (lenN vs + lenN vs' - lenN vs) with (lenN vs') by lia.
    rewrite concat_singles. rewrite Hrest.
    + now rewrite app_assoc.
    + cbn [num_pending]. apply N.sub_diag.
    + rewrite !app_length in Hf. destruct Hfl as [L _]. unfold lenN in L. lia.
Qed.
