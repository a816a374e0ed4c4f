(** Lemmas behind Props_Wire.v. *)
From Verif Require Import Base Io IoProofs Types Ser Deser ColumnSpec ColumnProofs ColumnRoundtrip LowCardProofs.

(* ---------- varint format ---------- *)
Lemma write_var_uint_leb128_go k : forall v, v < 128 ^ N.of_nat (S k) -> write_var_uint_go (S k) v = leb128 (S k) v.
Proof.
  induction k as [|k IH]; intros v Hv.
  - change (N.of_nat 1) with 1 in Hv. rewrite N.pow_1_r in Hv. cbn [write_var_uint_go leb128].
    rewrite (proj2 (N.ltb_lt v 128)) by assumption.
    destruct (N.ltb_spec 127 v); [lia|]. rewrite land127, N.mod_small by assumption.
    rewrite shiftr7. rewrite N.div_small by assumption. reflexivity.
  - remember (S k) as k' eqn:Hk'. cbn [write_var_uint_go leb128].
    destruct (N.ltb_spec v 128) as [H|H]; destruct (N.ltb_spec 127 v) as [H'|H']; try lia.
    + rewrite land127, N.mod_small by assumption. rewrite shiftr7, N.div_small by assumption. reflexivity.
    + assert (Hm : v mod 128 < 128) by (apply N.mod_lt; discriminate).
      rewrite land127, lor128 by assumption. f_equal. rewrite shiftr7.
      assert (Hd : v / 128 <> 0).
      { intros C. apply N.div_small_iff in C; [lia|discriminate]. }
      destruct (N.eqb_spec (v / 128) 0); [contradiction|]. subst k'. apply IH.
      apply N.div_lt_upper_bound; [discriminate|].
      replace (N.of_nat (S (S k))) with (N.succ (N.of_nat (S k))) in Hv by lia.
      rewrite N.pow_succ_r' in Hv. exact Hv.
Qed.

Lemma write_var_uint_leb128 v : v < 2 ^ 63 -> write_var_uint v = leb128 9 v.
Proof. intros H. apply write_var_uint_leb128_go. change (128 ^ N.of_nat 9) with (2 ^ 63). exact H. Qed.

(* ---------- scalar widths ---------- *)
Lemma le_bytes_lenN n x : lenN (le_bytes n x) = N.of_nat n.
Proof. unfold lenN. now rewrite le_bytes_length. Qed.

Lemma enc_sized_width t v bs w : width t = Some w -> representable v = true -> same_scalar t v = true ->
  enc_sized v = Ok bs -> lenN bs = w.
Proof.
  intros Hw Hr Hs E.
  destruct t as [i| |i| | | | |s|s|s|s| |n| | |z|p z| | | | | | |l|l| | | | |]; try discriminate Hw;
    destruct v as [i' x| |i' x| | | | | | | | | | | | | | | | | | | | | | | | |]; try discriminate Hs;
    try (destruct i; discriminate Hs);
    cbn [enc_sized] in E; injection E as <-; injection Hw as <-;
    cbn [representable] in Hr; rewrite ?lenN_rev, ?lenN_app, ?le_bytes_lenN;
    try (apply bytes_of_len_spec in Hr as [-> _]); try reflexivity.
  - destruct i, i'; try discriminate Hs; reflexivity.
  - destruct i, i'; try discriminate Hs; reflexivity.
Qed.

Lemma concat_width {A} (enc : A -> res (list N)) w vs bs :
  (forall v b, In v vs -> enc v = Ok b -> lenN b = w) ->
  rmap (@concat N) (mapM enc vs) = Ok bs -> lenN bs = w * lenN vs.
Proof.
  revert bs; induction vs as [|v vs IH]; intros bs H E.
  - injection E as <-. rewrite lenN_nil. unfold lenN; cbn. lia.
  - cbn [mapM] in E. destruct (enc v) as [b| |] eqn:Eb; cbn [rbind rmap] in E; try discriminate E.
    destruct (mapM enc vs) as [bss| |] eqn:Em; cbn [rbind rmap] in E; try discriminate E. injection E as <-.
    cbn [concat]. rewrite lenN_app, lenN_cons.
    rewrite (IH (concat bss)); [|intros; eapply H; eauto; now right|reflexivity].
    rewrite (H v b); [lia|now left|assumption].
Qed.

Lemma same_scalar_not_null t v : same_scalar t v = true -> is_null v = false.
Proof. destruct v; try reflexivity. destruct t; try discriminate. destruct w; discriminate. destruct w; discriminate. Qed.

Lemma width_sized t w : width t = Some w -> sized t = true.
Proof. destruct t; try discriminate; reflexivity. Qed.

Lemma same_scalar_codec t v : sized t = true -> representable v = true -> same_scalar t v = true ->
  codec_ok enc_sized (dec_sized t) (fun v => v) v.
Proof.
  intros Hs Hr Hv.
  destruct (match t with TEnum8 _ | TEnum16 _ => true | _ => false end) eqn:He.
  - destruct t; try discriminate He; destruct v; try discriminate Hv; cbn [dec_sized].
    + eapply (codec_signed I8); [reflexivity|exact Hr|reflexivity].
    + eapply (codec_signed I16); [reflexivity|exact Hr|reflexivity].
  - assert (Hi : inner_validate t v = true).
    { destruct t; try discriminate Hs; try discriminate He; destruct v; try discriminate Hv;
        try (destruct w; discriminate Hv); try reflexivity; try exact Hv;
        destruct w, w0; try discriminate Hv; reflexivity. }
    destruct (sized_codec t v Hs Hr Hi) as (bs & E & B & D). exists bs. split; [exact E|]. split; [assumption|].
    intros rest. rewrite D. do 2 f_equal.
    destruct t; try discriminate Hs; try reflexivity; destruct v; try discriminate Hv; try reflexivity;
      destruct w; try reflexivity; discriminate Hv.
Qed.

Lemma scalar_roundtrip t w vs : width t = Some w -> lenN vs <= 2 ^ 30 ->
  Forall (fun v => representable v = true /\ same_scalar t v = true) vs ->
  exists bs, ser t vs = Ok bs /\ lenN bs = w * lenN vs /\
    forall rest, deser t (lenN vs) (bs ++ rest) = Ok (vs, rest).
Proof.
  intros Hw Hl Hvs. pose proof (width_sized t w Hw) as Hs.
  destruct (column_codec (fun v => enc_sized (justify_null t v)) (dec_sized t) (fun v => v) vs) as (bs & E & _ & D).
  { eapply Forall_impl; [|exact Hvs]. intros v [Hr Hv].
    destruct (same_scalar_codec t v Hs Hr Hv) as (bs & E & B & D). exists bs. unfold justify_null.
    rewrite (same_scalar_not_null t v Hv). auto. }
  exists bs. rewrite ser_sized_eq by assumption. split; [exact E|]. split.
  - eapply concat_width; [|exact E]. intros v b Hin Eb. rewrite Forall_forall in Hvs. destruct (Hvs v Hin) as [Hr Hv].
    unfold justify_null in Eb. rewrite (same_scalar_not_null t v Hv) in Eb. exact (enc_sized_width t v b w Hw Hr Hv Eb).
  - intros rest. rewrite deser_sized_eq by assumption. rewrite check_rows_ok by exact Hl.
    unfold deser_sized. rewrite D. now rewrite map_id.
Qed.

(* ---------- FixedString ---------- *)
Lemma fixed_string_roundtrip n l : n < 2 ^ 63 -> lenN l <= 2 ^ 30 -> Forall bytes_ok l ->
  exists out, ser (TFixedString n) (map VString l) = Ok out /\ lenN out = n * lenN l /\
    forall rest, deser (TFixedString n) (lenN l) (out ++ rest)
      = Ok (map (fun bs => VString (fixed_view n bs)) l, rest).
Proof.
  intros Hn Hl Hb.
  destruct (leaf_column (TFixedString n) (map VString l)) as (bs & E & B & D); [reflexivity|now rewrite lenN_map| |].
  { apply Forall_forall. intros v Hv. apply in_map_iff in Hv as (b & <- & Hin).
    rewrite Forall_forall in Hb. specialize (Hb b Hin). split.
    - cbn [representable]. apply forallb_forall. intros x Hx. unfold bytes_ok in Hb. rewrite Forall_forall in Hb.
      apply N.ltb_lt. now apply Hb.
    - split; [now right|exact Hn]. }
  exists bs. split; [exact E|]. split.
  - rewrite <- (lenN_map VString). eapply concat_width; [|exact E]. intros v b Hin Eb.
    apply in_map_iff in Hin as (x & <- & _). injection Eb as <-. apply emit_fixed.
  - intros rest. rewrite lenN_map in D. rewrite D. now rewrite map_map.
Qed.

Lemma cut_nul_id l : cut_nul l = l <-> ~ In 0 l.
Proof.
  induction l as [|b t IH]; cbn [cut_nul]; [intuition|].
  destruct (N.eqb_spec b 0) as [->|Hb]; cbn [In].
  - split; [discriminate|]. intros H. exfalso. apply H. now left.
  - split.
    + intros H. injection H as H. apply IH in H. intros [C|C]; [congruence|contradiction].
    + intros H. f_equal. apply IH. tauto.
Qed.
Lemma cut_nul_length l : (length (cut_nul l) <= length l)%nat.
Proof. induction l as [|b t IH]; cbn [cut_nul length]; [lia|]. destruct (b =? 0); cbn [length]; lia. Qed.

Lemma fixed_view_id n bs : fixed_view n bs = bs <-> lenN bs <= n /\ ~ In 0 bs.
Proof.
  unfold fixed_view. split.
  - intros H. assert (L : (length bs <= N.to_nat n)%nat).
    { rewrite <- H. etransitivity; [apply cut_nul_length|]. rewrite firstn_length. lia. }
    split; [unfold lenN; lia|]. rewrite firstn_all2 in H by assumption. now apply cut_nul_id.
  - intros [L H]. rewrite firstn_all2 by (unfold lenN in L; lia). now apply cut_nul_id.
Qed.

Lemma byte_array_as_string t items : (t = TString \/ exists n, t = TFixedString n) ->
  forallb is_byte_value items = true -> forallb representable items = true ->
  ser t [VArray items] = ser t [VString (map spec_byte items)] /\ bytes_ok (map spec_byte items).
Proof.
  intros Ht Hi Hr. destruct (byte_values items Hi Hr) as [E B]. split; [|assumption].
  assert (H : enc_string t (VArray items) = enc_string t (VString (map spec_byte items))).
  { unfold enc_string, justify_null. cbn [is_null]. rewrite E. reflexivity. }
  assert (H2 : forall v, ser t [v] = rmap (@concat N) (mapM (enc_string t) [v])).
  { destruct Ht as [->|[n ->]]; reflexivity. }
  rewrite !H2. cbn [mapM]. now rewrite H.
Qed.

(* ---------- LowCardinality layout ---------- *)
Definition not_in (keys : list value) (v : value) : bool := negb (existsb (value_eqb v) keys).

Lemma filter_comm {A} (f g : A -> bool) l : filter f (filter g l) = filter g (filter f l).
Proof.
  induction l as [|x t IH]; [reflexivity|]. cbn [filter].
  destruct (g x) eqn:G, (f x) eqn:F; cbn [filter]; rewrite ?F, ?G, IH; reflexivity.
Qed.
Lemma filter_ext_in' {A} (f g : A -> bool) l : (forall x, In x l -> f x = g x) -> filter f l = filter g l.
Proof. apply filter_ext_in. Qed.
Lemma filter_idem {A} (f : A -> bool) l : filter f (filter f l) = filter f l.
Proof. induction l as [|x t IH]; [reflexivity|]. cbn [filter]. destruct (f x) eqn:F; cbn [filter]; rewrite ?F, IH; reflexivity. Qed.

Lemma firsts_in l x : In x (firsts l) -> In x l.
Proof. induction l as [|v t IH]; [auto|]. cbn [firsts In]. intros [H|H]; [auto|]. apply filter_In in H as [H _]. auto. Qed.

Lemma filter_firsts f l : (forall a b, In a l -> value_eqb a b = true -> a = b) ->
  firsts (filter f l) = filter f (firsts l).
Proof.
  intros Hl. induction l as [|v t IH]; [reflexivity|]. cbn [firsts filter].
  assert (Ht : forall a b, In a t -> value_eqb a b = true -> a = b) by (intros; apply Hl; [now right|assumption]).
  destruct (f v) eqn:F.
  - cbn [firsts]. rewrite IH by assumption. f_equal. apply filter_comm.
  - rewrite IH by assumption. rewrite filter_comm.
    symmetry. rewrite (filter_ext_in' (fun x => negb (value_eqb v x)) (fun _ => true) (filter f (firsts t))).
    + clear. induction (filter f (firsts t)) as [|x l IH]; [reflexivity|]. cbn. now rewrite IH.
    + intros x Hx. apply filter_In in Hx as [_ Hx]. destruct (value_eqb v x) eqn:E; [|reflexivity].
      apply (Hl v x) in E; [congruence|now left].
Qed.

Lemma fold_insert_firsts vs : plain_values vs -> forall keys, plain_values keys ->
  fold_left index_insert vs keys = keys ++ firsts (filter (not_in keys) vs).
Proof.
  induction 1 as [|v vs Hv Hvs IH]; intros keys Hk; [cbn; now rewrite app_nil_r|].
  cbn [fold_left filter].
  assert (HI : index_insert keys v = if existsb (value_eqb v) keys then keys else keys ++ [v]) by reflexivity.
  assert (HNI : not_in keys v = negb (existsb (value_eqb v) keys)) by reflexivity.
  rewrite HI, HNI. destruct (existsb (value_eqb v) keys) eqn:E; cbn [negb].
  - now apply IH.
  - rewrite IH by (apply Forall_app; split; [assumption|constructor; auto]).
    rewrite <- app_assoc. f_equal. cbn [app firsts]. f_equal.
    rewrite <- filter_firsts.
    + f_equal. clear -Hv Hvs. induction Hvs as [|w ws Hw _ IH]; [reflexivity|]. cbn [filter].
      assert (HN : not_in (keys ++ [v]) w = not_in keys w && negb (value_eqb v w)).
      { unfold not_in. rewrite existsb_app. cbn [existsb]. rewrite orb_false_r, negb_orb. f_equal. f_equal.
        destruct (value_eqb w v) eqn:E1, (value_eqb v w) eqn:E2; try reflexivity.
        - apply value_eqb_eq in E1; [|assumption]. subst. now rewrite value_eqb_refl in E2.
        - apply value_eqb_eq in E2; [|assumption]. subst. now rewrite value_eqb_refl in E1. }
      rewrite HN. destruct (not_in keys w); cbn [andb filter]; [|exact IH].
      destruct (negb (value_eqb v w)); rewrite IH; reflexivity.
    + intros a b Ha. apply filter_In in Ha as [Ha _]. apply value_eqb_eq.
      unfold plain_values in Hvs. rewrite Forall_forall in Hvs. now apply Hvs.
Qed.

Lemma filter_true {A} (f : A -> bool) l : (forall x, In x l -> f x = true) -> filter f l = l.
Proof. induction l as [|x t IH]; intros H; [reflexivity|]. cbn [filter]. rewrite H by now left. f_equal. apply IH. intros; apply H; now right. Qed.

Lemma lc_keys_spec nullable vs : plain_values vs ->
  lc_keys nullable vs = (if nullable then [VNull] else []) ++ firsts (filter (fun v => negb (nullable && is_null v)) vs).
Proof.
  intros H. unfold lc_keys. rewrite fold_insert_firsts by (assumption || (destruct nullable; repeat constructor)).
  f_equal. f_equal. apply filter_ext_in. intros v _. unfold not_in. destruct nullable; cbn [existsb andb negb].
  - now rewrite is_null_eqb, orb_false_r.
  - reflexivity.
Qed.

Lemma lc_entries t vs : lc_allowed (strip_null t) = true ->
  Forall (fun v => sendable (TLowCard t) v = true) vs -> plain_values vs.
Proof.
  intros Ht Hs. apply Forall_forall. intros v Hv. rewrite Forall_forall in Hs.
  apply Hs, sendable_spec in Hv as (Hr & Hi & _). cbn [inner_validate] in Hi.
  destruct t; try discriminate Ht; cbn [strip_null] in Ht; try (now apply (lc_allowed_no_geo _ v Ht) in Hi).
  cbn [inner_validate] in Hi. apply orb_true_iff in Hi as [Hi|Hi].
  - destruct v; try discriminate Hi; reflexivity.
  - now apply (lc_allowed_no_geo _ v Ht) in Hi.
Qed.

Lemma index_list keys vs : plain_values vs -> (forall v, In v vs -> In v keys) -> lenN keys <= 2 ^ 64 ->
  exists pos, mapM (lc_index keys) vs = Ok (map (le_bytes (lc_index_bytes (lenN keys))) pos) /\
    length pos = length vs /\
    Forall2 (fun i v => nth_error keys (N.to_nat i) = Some v /\ i < 256 ^ N.of_nat (lc_index_bytes (lenN keys))) pos vs.
Proof.
  intros Hg Hin Hn. induction Hg as [|v vs Hv Hvs IH].
  - exists []. repeat split; constructor.
  - destruct IH as (pos & E & L & F); [intros; apply Hin; now right|].
    destruct (index_of_in v keys Hv) as (i & Ei & Hi & Hnth); [apply Hin; now left|].
    exists (i :: pos). cbn [mapM map]. unfold lc_index at 1. rewrite Ei. cbn [rbind]. rewrite E. cbn [rbind].
    split; [reflexivity|]. split; [cbn [length]; now rewrite L|]. constructor; [|assumption].
    rewrite <- nthN_nth. split; [assumption|now apply lc_index_fits].
Qed.

Lemma Forall2_weaken {A B} (P Q : A -> B -> Prop) l m : (forall a b, P a b -> Q a b) -> Forall2 P l m -> Forall2 Q l m.
Proof. intros H. induction 1; constructor; auto. Qed.

Lemma firsts_nodup l : plain_values l -> NoDup (firsts l).
Proof.
  induction 1 as [|v t Hv _ IH]; cbn [firsts]; constructor.
  - intros C. apply filter_In in C as [_ C]. rewrite value_eqb_refl in C by assumption. discriminate.
  - now apply NoDup_filter.
Qed.

Lemma low_card_layout t vs :
  validate (TLowCard t) = true -> vs <> [] -> lenN vs < 2 ^ 64 ->
  Forall (fun v => sendable (TLowCard t) v = true) vs ->
  let nullable := is_nullable t in
  let keys := (if nullable then [VNull] else []) ++ firsts (filter (fun v => negb (nullable && is_null v)) vs) in
  NoDup keys /\
  forall bs, ser (TLowCard t) vs = Ok bs ->
  exists flags body w pos,
    bs = le_bytes 8 flags ++ le_bytes 8 (lenN keys) ++ body ++ le_bytes 8 (lenN vs)
         ++ concat (map (le_bytes (ibytes w)) pos)
    /\ ser (strip_null t) keys = Ok body
    /\ flags = N.lor (match w with I8 => 0 | I16 => 1 | I32 => 2 | _ => 3 end) (2 ^ 9)
    /\ Forall2 (fun i v => nth_error keys (N.to_nat i) = Some v /\ i < 2 ^ (8 * N.of_nat (ibytes w))) pos vs.
Proof.
  intros Hval Hne Hlen Hs nullable keys. cbn [validate] in Hval. apply andb_true_iff in Hval as [Ht _].
  pose proof (lc_entries t vs Ht Hs) as Hg.
  assert (HK : lc_keys nullable vs = keys) by (now apply lc_keys_spec).
  split.
  { unfold keys. destruct nullable eqn:En; cbn [app].
    - constructor.
      + intros C. apply firsts_in, filter_In in C as [_ C]. discriminate C.
      + apply firsts_nodup. apply Forall_forall. intros x Hx. apply filter_In in Hx as [Hx _].
        unfold plain_values in Hg. rewrite Forall_forall in Hg. auto.
    - apply firsts_nodup. apply Forall_forall. intros x Hx. apply filter_In in Hx as [Hx _].
        unfold plain_values in Hg. rewrite Forall_forall in Hg. auto. }
  intros bs E.
  assert (HE : ser (TLowCard t) vs = ser_low_card nullable (ser (strip_null t)) vs).
  { unfold nullable. destruct t; reflexivity. }
  rewrite HE in E. unfold ser_low_card in E. destruct vs as [|v0 vs0]; [congruence|].
  remember (v0 :: vs0) as vs eqn:Hvs. clear Hvs v0 vs0. rewrite HK in E.
  inv_bind E. inv_bind E. injection E as <-.
  assert (HKL : lenN keys <= 2 ^ 64). { rewrite <- HK. pose proof (lc_keys_length nullable vs). lia. }
  destruct (index_list keys vs Hg) as (pos & Ep & _ & F); [|assumption|].
  { intros v Hv. rewrite <- HK. unfold lc_keys. apply fold_insert_in; auto. }
  rewrite Ep in E1. injection E1 as <-.
  exists (N.lor (lc_index_flag (lenN keys)) HAS_ADDITIONAL_KEYS_BIT), a.
  unfold lc_index_flag, lc_index_bytes in *.
  destruct (2 ^ 32 - 1 <? lenN keys);
    [exists I64|destruct (2 ^ 16 - 1 <? lenN keys); [exists I32|destruct (2 ^ 8 - 1 <? lenN keys); [exists I16|exists I8]]];
    exists pos; (split; [reflexivity|]); (split; [assumption|]); (split; [reflexivity|]);
    (eapply Forall2_weaken; [|exact F]); intros i v [A B]; (split; [assumption|]); rewrite pow256_2 in B; exact B.
Qed.

(* ---------- prefixes ---------- *)
Lemma prefix_roundtrip t : validate t = true -> forall rest, deser_prefix t (ser_prefix t ++ rest) = Ok (tt, rest).
Proof.
  induction t as [t Hl|t IH|t IH|ts IH|t IH|k v IHk IHv] using ty_ind_leaf; intros Hval rest.
  - destruct t; try discriminate Hl; reflexivity.
  - cbn [deser_prefix ser_prefix]. unfold rdbind. rewrite read_le_app by reflexivity. reflexivity.
  - now apply IH.
  - cbn [validate] in Hval. cbn [deser_prefix ser_prefix]. revert rest.
    induction IH as [|t1 ts H1 _ IHts]; intros rest; [reflexivity|].
    cbn [forallb] in Hval. apply andb_true_iff in Hval as [V1 V2]. cbn [flat_map]. rewrite <- app_assoc.
    unfold rdbind at 1. rewrite H1 by assumption. cbn [rbind]. now apply IHts.
  - cbn [validate] in Hval. apply andb_true_iff in Hval as [H1 H2]. apply negb_true_iff in H1.
    destruct t; try discriminate H1; reflexivity.
  - cbn [validate] in Hval. apply andb_true_iff in Hval as [H1 H2]. apply andb_true_iff in H1 as [H0 H1].
    cbn [deser_prefix ser_prefix]. unfold rdbind. rewrite <- app_assoc. rewrite IHk by assumption. cbn [rbind].
    rewrite IHv by assumption. reflexivity.
Qed.

Lemma le_val_one n : forall l, length l = S n -> le_val l = 1 -> l = 1 :: repeat 0 n.
Proof.
  assert (Z : forall n l, length l = n -> le_val l = 0 -> l = repeat 0 n).
  { clear. induction n as [|n IH]; intros [|b l] L V; try discriminate L; [reflexivity|]. cbn [le_val] in V. cbn [repeat].
    injection L as L. f_equal; [lia|]. apply IH; [exact L|lia]. }
  intros [|b l] L V; [discriminate L|]. injection L as L. cbn [le_val] in V. f_equal; [lia|]. apply Z; [exact L|lia].
Qed.
Lemma prefix_exact t : validate t = true -> forall inp rest, deser_prefix t inp = Ok (tt, rest) <-> inp = ser_prefix t ++ rest.
Proof.
  intros V inp rest. split; [|intros ->; now apply prefix_roundtrip]. revert V inp rest.
  induction t as [t Hl|t IH|t IH|ts IH|t IH|k v IHk IHv] using ty_ind_leaf; intros Hval inp rest H.
  - destruct t; try discriminate Hl; cbn in H; unfold rret in H; injection H as <-; reflexivity.
  - cbn [deser_prefix ser_prefix] in *. unfold rdbind, read_le in H. unfold rdbind in H.
    destruct (read_exact (N.of_nat 8) inp) as [[bs r]|e|] eqn:R; try discriminate H. cbn [rbind] in H. unfold rret in H at 1. cbn [rbind] in H.
    destruct (le_val bs =? LOW_CARDINALITY_VERSION) eqn:E; [|discriminate H]. injection H as <-.
    apply read_exact_ok in R as [-> L]. f_equal. apply N.eqb_eq in E. apply (le_val_one 7); [unfold lenN in L; lia|exact E].
  - now apply IH.
  - cbn [validate] in Hval. cbn [deser_prefix ser_prefix] in *. revert inp H.
    induction IH as [|t1 ts H1 _ IHts]; intros inp H; [unfold rret in H; injection H as <-; reflexivity|].
    cbn [forallb] in Hval. apply andb_true_iff in Hval as [V1 V2]. cbn [flat_map]. rewrite <- app_assoc.
    unfold rdbind in H at 1. destruct (deser_prefix t1 inp) as [[[] r]|e|] eqn:D; try discriminate H. cbn [rbind] in H.
    apply (H1 V1) in D as ->. f_equal. now apply IHts.
  - cbn [validate] in Hval. apply andb_true_iff in Hval as [H1 H2]. apply negb_true_iff in H1.
    destruct t; try discriminate H1; cbn in H; unfold rret in H; injection H as <-; reflexivity.
  - cbn [validate] in Hval. apply andb_true_iff in Hval as [H1 H2]. apply andb_true_iff in H1 as [H0 H1].
    cbn [deser_prefix ser_prefix] in *. unfold rdbind in H at 1. rewrite <- app_assoc.
    destruct (deser_prefix k inp) as [[[] r]|e|] eqn:D; try discriminate H. cbn [rbind] in H. apply IHk in D as ->; [|assumption]. f_equal.
    unfold rdbind in H. destruct (deser_prefix v r) as [[[] r']|e|] eqn:D; try discriminate H. cbn [rbind] in H. unfold rret in H. injection H as <-.
    now apply IHv.
Qed.

(* ---------- normal forms ---------- *)
Lemma map_id_in {A} (f : A -> A) l : (forall x, In x l -> f x = x) -> map f l = l.
Proof. intros H. rewrite <- (map_id l) at 2. now apply map_ext_in. Qed.

Lemma normal_canonical t : forall v,
  inner_validate t v = true -> shape_ok t v = true -> canonical t v = true -> normal t v = v.
Proof.
  induction t as [t Hl|t IH|t IH|ts IH|t IH|k w IHk IHv] using ty_ind_leaf; intros v Hv Hs Hc.
  - destruct t; try discriminate Hl; try reflexivity; destruct v; try reflexivity; try discriminate Hv;
      try (destruct w; (reflexivity || discriminate)).
    + discriminate Hc.
    + cbn [canonical] in Hc. unfold fixed_ok in Hc. apply andb_true_iff in Hc as [H1 H2]. cbn [normal]. f_equal.
      apply fixed_view_id. split; [lia|]. intros C. rewrite forallb_forall in H2. specialize (H2 0 C). discriminate.
    + discriminate Hc.
  - now apply IH.
  - destruct v; try reflexivity; try discriminate Hv. cbn [normal]. f_equal.
    cbn [inner_validate shape_ok canonical] in *. rewrite forallb_forall in Hv, Hs, Hc. apply map_id_in. auto.
  - destruct v; try reflexivity; try discriminate Hv. cbn [normal]. f_equal.
    cbn [inner_validate shape_ok canonical] in *. apply andb_true_iff in Hs as [HL Hs]. apply N.eqb_eq in HL.
    revert l Hv Hs Hc HL. induction IH as [|t1 ts H1 _ IHts]; intros [|x l] Hv Hs Hc HL; try reflexivity;
      rewrite ?lenN_cons, ?lenN_nil in HL; try lia.
    cbn [zip_all zip_with] in *. apply andb_true_iff in Hv as [? ?]. apply andb_true_iff in Hs as [? ?].
    apply andb_true_iff in Hc as [? ?]. rewrite H1 by assumption. f_equal. apply IHts; auto. lia.
  - cbn [normal]. cbn [inner_validate shape_ok canonical] in *. destruct (is_null v) eqn:E.
    + destruct v; try discriminate E; reflexivity.
    + apply IH; assumption.
  - destruct v; try reflexivity; try discriminate Hv. cbn [normal].
    cbn [inner_validate shape_ok canonical] in *. apply andb_true_iff in Hv as [? ?].
    apply andb_true_iff in Hs as [Hs ?]. apply andb_true_iff in Hs as [_ ?]. apply andb_true_iff in Hc as [? ?].
    repeat match goal with H : forallb _ _ = true |- _ => rewrite forallb_forall in H end.
    f_equal; apply map_id_in; auto.
Qed.

Lemma low_card_roundtrip t vs :
  validate (TLowCard t) = true -> Forall (fun v => sendable (TLowCard t) v = true) vs -> lenN vs < 2 ^ 30 ->
  Forall (fun v => str_len v <= 2 ^ 30) vs -> lengths_ok t = true ->
  exists bs, ser (TLowCard t) vs = Ok bs /\
    forall rest, deser (TLowCard t) (lenN vs) (bs ++ rest) = Ok (map (normal t) vs, rest).
Proof.
  intros Hv Hs Hl Hsz Hok. destruct (column_roundtrip (TLowCard t) vs Hv Hs) as (bs & E & _ & D).
  - cbn [fits]. split; [unfold within; lia|]. split; [assumption|]. eapply Forall_impl; [|exact Hsz]. intros v Hv2. split; [exact Hv2|].
    apply lengths_room; [destruct t; exact Hok|exact Hv2].
  - exists bs. split; [exact E|exact D].
Qed.

Lemma lc_value_eqb t v w : lc_allowed (strip_null t) = true ->
  inner_validate t v = true -> (value_eqb v w = true <-> v = w).
Proof.
  intros Ht Hv.
  assert (Hg : no_geo v = true).
  { destruct t; try discriminate Ht; cbn [strip_null] in Ht; try (now apply (lc_allowed_no_geo _ v Ht) in Hv).
    cbn [inner_validate] in Hv. apply orb_true_iff in Hv as [Hv|Hv].
    - destruct v; try discriminate Hv; reflexivity.
    - now apply (lc_allowed_no_geo _ v Ht) in Hv. }
  split; [now apply value_eqb_eq|]. intros <-. now apply value_eqb_refl.
Qed.
