(** The layout of a Native block on the wire (independent of the library's reader and writer),
    and proofs that the reader accepts every such block and the writer produces one. *)
From Verif Require Import Base Io IoProofs Types Text TypeText TypeTextProofs TypeTextProofs2 Utf8 IndexMap Ser Deser ColumnSpec
  ColumnProofs ColumnRoundtrip LowCardProofs WireProofs DecodeProofs WireSpec WireDecode WireEncode Block BlockSpec BlockProofs.

(* ---------------- specification ---------------- *)

(** A text: length in bytes of its UTF-8 form, then those bytes. *)
Definition text_wire (s : text) (bs : list N) : Prop := name_fits s /\ bs = leb128 9 (lenN (utf8 s)) ++ utf8 s.

(** One column: name, type, and, unless the block has no rows, prefix and data. *)
Definition column_wire (D : tzdb) (rows : N) (c : text * ty * list value) (bs : list N) : Prop :=
  let '(name, t, vs) := c in
  lenN vs = rows /\
  exists nb tb body, text_wire name nb /\ text_wire (show_ty D t) tb /\ bs = nb ++ tb ++ body /\
    (rows = 0 -> body = []) /\
    (rows <> 0 -> exists p d, prefix_wire t p /\ encodes (2 ^ 30) t vs d /\ body = p ++ d).

(** The info: numbered fields in any order (1: overflow flag, one byte; 2: bucket number, four
    bytes), ended by field number 0.  [info_fields i j bs]: reading [bs] turns [i] into [j]. *)
Inductive info_fields : block_info -> block_info -> list N -> Prop :=
| info_end i : info_fields i i [0]
| info_overflow i j b bs : b < 256 ->
    info_fields {| is_overflows := negb (b =? 0); bucket_num := bucket_num i |} j bs ->
    info_fields i j (1 :: b :: bs)
| info_bucket i j n w bs : (- 2 ^ 31 <= n < 2 ^ 31)%Z -> word 4 (twos 32 n) w ->
    info_fields {| is_overflows := is_overflows i; bucket_num := n |} j bs ->
    info_fields i j (2 :: w ++ bs).

(** Before any field is read: no overflow, no bucket. *)
Definition no_info : block_info := {| is_overflows := false; bucket_num := -1 |}.

(** The block: info (only towards revisions other than 0), number of columns, number of rows,
    columns. *)
Definition block_wire (D : tzdb) (rev : N) (info : block_info) (rows : N)
    (cols : list (text * ty * list value)) (bs : list N) : Prop :=
  rows < 2 ^ 63 /\ lenN cols < 2 ^ 63 /\
  exists ib parts,
    (if rev =? 0 then ib = [] /\ info = no_info else info_fields no_info info ib) /\
    Forall2 (column_wire D rows) cols parts /\
    bs = ib ++ leb128 9 (lenN cols) ++ leb128 9 rows ++ concat parts.

(* ---------------- prefixes ---------------- *)
Lemma words_app n a b bs : words n (a ++ b) bs -> exists x y, bs = x ++ y /\ words n a x /\ words n b y.
Proof.
  intros (parts & F & ->). apply Forall2_app_inv_l in F as (p1 & p2 & F1 & F2 & ->).
  exists (concat p1), (concat p2). rewrite concat_app. split; [reflexivity|]. split; [exists p1|exists p2]; auto.
Qed.
Lemma words_app_intro n a b x y : words n a x -> words n b y -> words n (a ++ b) (x ++ y).
Proof.
  intros (p & F & ->) (q & G & ->). exists (p ++ q). rewrite concat_app. split; [|reflexivity]. now apply Forall2_app.
Qed.

Lemma read_prefix_wire t : forall bs rest, prefix_wire t bs -> deser_prefix t (bs ++ rest) = Ok (tt, rest).
Proof.
  unfold prefix_wire.
  induction t as [t Hl|t IH|t IH|ts IH|t IH|k v IHk IHv] using ty_ind_leaf; intros bs rest H; cbn [low_cards deser_prefix] in *; auto.
  - assert (E : bs = []) by (destruct t; try discriminate Hl; now apply words_nil in H). subst.
    destruct t; try discriminate Hl; reflexivity.
  - cbn [repeat] in H. destruct H as (parts & F & ->). inversion F as [|? p ? ps Hp Fn]; subst. inversion Fn; subst. cbn [concat].
    rewrite app_nil_r. unfold rdbind. rewrite (read_word 8 8 _ _ _ eq_refl Hp). reflexivity.
  - revert bs rest H. induction IH as [|t ts Ht _ IH]; intros bs rest H; cbn [fold_right repeat] in H.
    + apply words_nil in H as ->. reflexivity.
    + rewrite repeat_app in H. apply words_app in H as (x & y & -> & H1 & H2). rewrite <- app_assoc. unfold rdbind.
      rewrite Ht by exact H1. cbn [rbind]. now apply IH.
  - rewrite repeat_app in H. apply words_app in H as (x & y & -> & H1 & H2). rewrite <- app_assoc. unfold rdbind.
    rewrite IHk by exact H1. cbn [rbind]. rewrite IHv by exact H2. reflexivity.
Qed.

Lemma write_prefix_wire t : validate t = true -> prefix_wire t (ser_prefix t).
Proof.
  unfold prefix_wire.
  induction t as [t Hl|t IH|t IH|ts IH|t IH|k v IHk IHv] using ty_ind_leaf; intros Hv; cbn [low_cards ser_prefix validate] in *; auto.
  - assert (E : low_cards t = 0%nat /\ ser_prefix t = []) by (destruct t; try discriminate Hl; split; reflexivity).
    destruct E as [-> ->]. exists []. split; [constructor|reflexivity].
  - exists [le_bytes 8 LOW_CARDINALITY_VERSION]. split; [|reflexivity]. constructor; [|constructor].
    apply (word_le 8 _ 64 eq_refl). reflexivity.
  - revert Hv. induction IH as [|t ts Ht _ IH]; intros Hv; cbn [fold_right flat_map forallb] in *.
    + exists []. split; [constructor|reflexivity].
    + apply andb_true_iff in Hv as [H1 H2]. rewrite repeat_app. apply words_app_intro; auto.
  - apply andb_true_iff in Hv as [H1 _]. apply negb_true_iff in H1.
    assert (E : low_cards t = 0%nat) by (destruct t; try discriminate H1; reflexivity).
    rewrite E. exists []. split; [constructor|reflexivity].
  - apply andb_true_iff in Hv as [H1 H2]. apply andb_true_iff in H1 as [H0 H1]. rewrite repeat_app. apply words_app_intro; auto.
Qed.

(* ---------------- reading ---------------- *)
Lemma read_text_wire s bs rest : text_wire s bs -> read_utf8_string (bs ++ rest) = Ok (s, rest).
Proof.
  intros [Hn ->]. rewrite <- write_var_uint_leb128 by (destruct Hn; lia). now apply (read_write_text s rest).
Qed.
Lemma write_text_wire s : name_fits s -> text_wire s (write_text s).
Proof. intros H. split; [assumption|]. unfold write_text, write_string. now rewrite write_var_uint_leb128 by (destruct H; lia). Qed.

Lemma read_column_wire U D rows c bs rest : tzdb_ok D -> printable U (snd (fst c)) -> column_wire D rows c bs ->
  read_column U D rows (bs ++ rest) = Ok (c, rest).
Proof.
  destruct c as [[name t] vs]. cbn [fst snd]. intros HD Hp (Hl & nb & tb & body & Hn & Ht & -> & H0 & H1).
  unfold read_column. rewrite <- !app_assoc. unfold rdbind at 1. rewrite (read_text_wire name) by exact Hn. cbn [rbind].
  unfold rdbind at 1. rewrite (read_text_wire (show_ty D t)) by exact Ht. cbn [rbind]. unfold rdbind at 1, lift.
  rewrite parse_show by assumption. cbn [rbind]. unfold rdbind at 1. destruct (N.ltb_spec 0 rows) as [Hr|Hr].
  - destruct (H1 ltac:(lia)) as (p & d & Hpre & Henc & ->). unfold rdbind. rewrite <- app_assoc, read_prefix_wire by exact Hpre. cbn [rbind].
    destruct (proj1 wire_decode _ _ _ Henc) as (_ & _ & R). rewrite <- Hl, R. reflexivity.
  - assert (rows = 0) as -> by lia. rewrite H0 by reflexivity. apply lenN_0 in Hl as ->. reflexivity.
Qed.

Lemma read_info_fields i j bs : info_fields i j bs -> forall f rest, (length bs <= f)%nat ->
  info_loop f i (bs ++ rest) = Ok (j, rest).
Proof.
  induction 1 as [i|i j b bs Hb _ IH|i j n w bs Hn Hw _ IH]; intros f rest Hf.
  - destruct f; [cbn in Hf; lia|]. reflexivity.
  - destruct f as [|f]; [cbn in Hf; lia|]. cbn [length] in Hf. cbn [app info_loop].
    change (read_var_uint (1 :: b :: bs ++ rest)) with (@Ok (N * list N) (1, b :: bs ++ rest)). cbn [rbind].
    change (1 =? 0) with false. change (1 =? 1) with true. cbn iota.
    assert (R : read_le 1 (b :: bs ++ rest) = Ok (b, bs ++ rest)).
    { assert (W : word 1 b [b]) by (split; [reflexivity|]; split; [constructor; [assumption|constructor]|cbn; lia]).
      exact (read_word 1 1 b [b] (bs ++ rest) eq_refl W). }
    rewrite R. cbn [rbind]. apply IH. lia.
  - destruct f as [|f]; [cbn in Hf; lia|]. cbn [length] in Hf. cbn [app info_loop].
    change (read_var_uint (2 :: (w ++ bs) ++ rest)) with (@Ok (N * list N) (2, (w ++ bs) ++ rest)). cbn [rbind].
    change (2 =? 0) with false. change (2 =? 1) with false. change (2 =? 2) with true. cbn iota.
    rewrite <- app_assoc, (read_word 4 4 _ _ _ eq_refl Hw). cbn [rbind].
    rewrite twos_s2u, u2s_s2u by (reflexivity || exact Hn). apply IH. rewrite app_length in Hf. lia.
Qed.

Lemma read_info_unknown i j bs0 : info_fields i j bs0 -> forall bs f n rest, bs0 = bs ++ [0] -> (length bs0 <= f)%nat -> 2 < n < 2 ^ 63 ->
  info_loop f i (bs ++ write_var_uint n ++ rest) = Err EProtocol.
Proof.
  induction 1 as [i|i j b bs' Hb HI IH|i j n w bs' Hn Hw HI IH]; intros bs f m rest E Hf Hm.
  - destruct bs as [|x [|y bs]]; try discriminate E. destruct f as [|f]; [cbn in Hf; lia|]. cbn [app info_loop].
    rewrite read_write_var_uint by lia. cbn [rbind].
    replace (m =? 0) with false by lia. replace (m =? 1) with false by lia. replace (m =? 2) with false by lia. reflexivity.
  - destruct (exists_last (l := bs')) as (b1 & z & ->); [inversion HI; discriminate|].
    change (1 :: b :: b1 ++ [z]) with ((1 :: b :: b1) ++ [z]) in E. apply app_inj_tail in E as [<- ->].
    destruct f as [|f]; [cbn in Hf; lia|]. cbn [length] in Hf. cbn [app info_loop].
    change (read_var_uint (1 :: b :: b1 ++ write_var_uint m ++ rest)) with (@Ok (N * list N) (1, b :: b1 ++ write_var_uint m ++ rest)). cbn [rbind].
    change (1 =? 0) with false. change (1 =? 1) with true. cbn iota.
    assert (R : read_le 1 (b :: b1 ++ write_var_uint m ++ rest) = Ok (b, b1 ++ write_var_uint m ++ rest)).
    { assert (W : word 1 b [b]) by (split; [reflexivity|]; split; [constructor; [assumption|constructor]|cbn; lia]).
      exact (read_word 1 1 b [b] _ eq_refl W). }
    rewrite R. cbn [rbind]. apply IH; [reflexivity|lia|exact Hm].
  - destruct (exists_last (l := bs')) as (b1 & z & ->); [inversion HI; discriminate|].
    replace (2 :: w ++ b1 ++ [z]) with ((2 :: w ++ b1) ++ [z]) in E by (cbn [app]; now rewrite <- app_assoc). apply app_inj_tail in E as [<- ->].
    destruct f as [|f]; [cbn in Hf; lia|]. cbn [length] in Hf. cbn [app info_loop].
    change (read_var_uint (2 :: (w ++ b1) ++ write_var_uint m ++ rest)) with (@Ok (N * list N) (2, (w ++ b1) ++ write_var_uint m ++ rest)). cbn [rbind].
    change (2 =? 0) with false. change (2 =? 1) with false. change (2 =? 2) with true. cbn iota.
    rewrite <- app_assoc, (read_word 4 4 _ _ _ eq_refl Hw). cbn [rbind].
    rewrite twos_s2u, u2s_s2u by (reflexivity || exact Hn). apply IH; [reflexivity|rewrite app_length in Hf; lia|exact Hm].
Qed.

Theorem block_wire_read U D rev info rows cols bs : tzdb_ok D ->
  NoDup (map (fun c => fst (fst c)) cols) -> Forall (fun c => printable U (snd (fst c))) cols ->
  block_wire D rev info rows cols bs -> forall rest,
  read_block U D rev (bs ++ rest) =
  Ok ({| b_info := info; b_rows := rows; b_types := map fst cols; b_data := map (fun c => (fst (fst c), snd c)) cols |}, rest).
Proof.
  intros HD Hnd Hp (Hr & Hc & ib & parts & Hi & F & ->) rest. unfold read_block.
  rewrite <- !app_assoc. unfold rdbind at 1.
  assert (Hinfo : forall ext, (if 0 <? rev then read_info else rret default_info) (ib ++ ext) = Ok (info, ext)).
  { intros ext. destruct (N.eqb_spec rev 0) as [->|Hrev].
    - destruct Hi as [-> ->]. reflexivity.
    - replace (0 <? rev) with true by (symmetry; apply N.ltb_lt; lia). unfold read_info. apply (read_info_fields _ _ _ Hi).
      rewrite app_length. lia. }
  rewrite Hinfo. cbn [rbind]. unfold rdbind at 1. rewrite <- write_var_uint_leb128 by exact Hc. rewrite read_write_var_uint by exact Hc. cbn [rbind].
  unfold rdbind at 1. rewrite <- write_var_uint_leb128 by exact Hr. rewrite read_write_var_uint by exact Hr. cbn [rbind].
  unfold rdbind at 1.
  rewrite (read_parts (read_column U D rows) (fun c p => column_wire D rows c p /\ printable U (snd (fst c)))).
  - cbn [rbind]. unfold rret. rewrite fold_add by (cbn [b_types b_data im_keys map app]; (exact Hnd || reflexivity)).
    cbn [b_info b_rows b_types b_data app]. do 3 f_equal. apply map_ext. now intros [[k t] vs].
  - intros c p [Hw Hpr] r. now apply read_column_wire.
  - clear -F Hp. revert Hp. induction F as [|c p cols parts Hc _ IH]; intros Hp; [constructor|].
    inversion Hp; subst. constructor; auto.
Qed.

(* ---------------- writing ---------------- *)
Lemma write_column_wire U D rows name t vs : column_ok U D rows name t vs ->
  exists bs, write_column D rows (name, t, vs) = Ok bs /\ column_wire D rows (name, t, map (normal t) vs) bs.
Proof.
  intros (Hn & Ht & Hp & Hl & Hv). unfold write_column. rewrite Hl, N.eqb_refl. cbn [negb].
  destruct (N.ltb_spec 0 rows) as [H0|H0].
  - destruct (Hv ltac:(lia)) as (V1 & V2 & V3). destruct (wire_encode t vs V1 V2 V3) as (bs & E & W). rewrite E. cbn [rbind].
    eexists. split; [reflexivity|]. split; [now rewrite lenN_map|].
    exists (write_text name), (write_text (show_ty D t)), (ser_prefix t ++ bs).
    split; [now apply write_text_wire|]. split; [now apply write_text_wire|]. split; [reflexivity|].
    split; [lia|]. intros _. exists (ser_prefix t), bs. split; [now apply write_prefix_wire|]. auto.
  - cbn [rbind]. eexists. split; [reflexivity|]. split; [now rewrite lenN_map|].
    exists (write_text name), (write_text (show_ty D t)), [].
    split; [now apply write_text_wire|]. split; [now apply write_text_wire|]. split; [reflexivity|].
    split; [reflexivity|]. lia.
Qed.

Lemma write_info_fields i : (- 2 ^ 31 <= bucket_num i < 2 ^ 31)%Z ->
  info_fields default_info {| is_overflows := true; bucket_num := bucket_num i |} (write_info i).
Proof.
  intros H. unfold write_info. change (write_var_uint 1) with [1]. change (write_var_uint 2) with [2]. change (write_var_uint 0) with [0].
  cbn [app]. apply info_overflow; [destruct (is_overflows i); reflexivity|].
  apply (info_bucket _ _ (bucket_num i)); [exact H| |].
  - rewrite twos_s2u by (reflexivity || exact H). apply (word_le 4 _ 32 eq_refl). apply s2u_bound.
  - cbn [is_overflows bucket_num default_info]. replace (negb ((if is_overflows i then 1 else 2) =? 0)) with true by (destruct (is_overflows i); reflexivity).
    apply info_end.
Qed.

Theorem block_wire_write U D rev b : block_ok U D b -> (- 2 ^ 31 <= bucket_num (b_info b) < 2 ^ 31)%Z ->
  exists bytes, write_block D rev b = Ok bytes /\
    block_wire D rev (sent_info rev (b_info b)) (b_rows b)
      (map (fun e : text * ty => (fst e, snd e, map (normal (snd e)) (match im_get (fst e) (b_data b) with Some vs => vs | None => [] end))) (b_types b)) bytes.
Proof.
  intros (Ht & Hd & Hc & Hr & Hn) Hb.
  set (col := fun k => match im_get k (b_data b) with Some vs => vs | None => [] end).
  assert (J : join_columns (b_types b) (b_data b) = map (fun e => (fst e, snd e, col (fst e))) (b_types b)).
  { apply join_complete; auto. intros k t Hi. destruct (Hc k t Hi) as (vs & E & _). unfold col. now rewrite E. }
  unfold write_block. rewrite J.
  assert (HC : exists parts, mapM (write_column D (b_rows b)) (map (fun e => (fst e, snd e, col (fst e))) (b_types b)) = Ok parts /\
    Forall2 (column_wire D (b_rows b)) (map (fun e : text * ty => (fst e, snd e, map (normal (snd e)) (col (fst e)))) (b_types b)) parts).
  { assert (HC' : forall k t, In (k, t) (b_types b) -> column_ok U D (b_rows b) k t (col k)).
    { intros k t Hi. destruct (Hc k t Hi) as (vs & E & O). unfold col. now rewrite E. }
    revert HC'. generalize (b_types b). clear. intros l. induction l as [|[k t] l IH]; intros H.
    - exists []. split; [reflexivity|constructor].
    - destruct IH as (parts & E & F); [intros; apply H; now right|].
      destruct (write_column_wire U D (b_rows b) k t (col k) (H k t (or_introl eq_refl))) as (bs & Eb & W).
      exists (bs :: parts). cbn [map mapM fst snd]. rewrite Eb. cbn [rbind]. rewrite E. split; [reflexivity|now constructor]. }
  destruct HC as (parts & E & F). rewrite E. cbn [rbind]. eexists. split; [reflexivity|].
  split; [exact Hr|]. split; [rewrite lenN_map; exact Hn|].
  exists (if 0 <? rev then write_info (b_info b) else []), parts. split; [|split].
  - unfold sent_info. destruct (N.eqb_spec rev 0) as [->|Hrev]; [split; reflexivity|].
    replace (0 <? rev) with true by (symmetry; apply N.ltb_lt; lia). now apply write_info_fields.
  - exact F.
  - rewrite !lenN_map. rewrite !write_var_uint_leb128 by assumption. reflexivity.
Qed.
