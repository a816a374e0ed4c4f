(** The column round trip for every valid type: Array, Tuple, Nullable, Map,
    LowCardinality and geo on top of the leaf columns of ColumnProofs.v. *)
From Verif Require Import Base Io IoProofs Types Ser Deser ColumnSpec ColumnProofs.

Lemma sendable_spec t v : sendable t v = true ->
  representable v = true /\ inner_validate t v = true /\ shape_ok t v = true.
Proof. unfold sendable. intros H. apply andb_true_iff in H as [H H3]. apply andb_true_iff in H as [H1 H2]. auto. Qed.

Lemma sendable_intro t v :
  representable v = true -> inner_validate t v = true -> shape_ok t v = true -> sendable t v = true.
Proof. unfold sendable. intros -> -> ->. reflexivity. Qed.

Lemma fits_within t vs : fits t vs -> within (lenN vs).
Proof. destruct t; intros [H _]; exact H. Qed.

(* ---------- geo columns as columns of values ---------- *)
Lemma point_values vs : Forall (fun v => sendable TPoint v = true) vs ->
  exists ps, vs = map VPoint ps /\ forallb pointb ps = true.
Proof.
  induction 1 as [|v vs Hv _ (ps & -> & Hp)]; [now exists []|].
  apply sendable_spec in Hv as (Hr & Hi & _). destruct v; try discriminate Hi.
  exists (p :: ps). split; [reflexivity|]. cbn [forallb]. cbn [representable] in Hr. now rewrite Hp, Hr.
Qed.
Lemma ring_values vs : Forall (fun v => sendable TRing v = true) vs ->
  exists ps, vs = map VRing ps /\ forallb (forallb pointb) ps = true.
Proof.
  induction 1 as [|v vs Hv _ (ps & -> & Hp)]; [now exists []|].
  apply sendable_spec in Hv as (Hr & Hi & _). destruct v; try discriminate Hi.
  exists (r :: ps). split; [reflexivity|]. cbn [forallb]. cbn [representable] in Hr. now rewrite Hp, Hr.
Qed.
Lemma polygon_values vs : Forall (fun v => sendable TPolygon v = true) vs ->
  exists ps, vs = map VPolygon ps /\ forallb (forallb (forallb pointb)) ps = true.
Proof.
  induction 1 as [|v vs Hv _ (ps & -> & Hp)]; [now exists []|].
  apply sendable_spec in Hv as (Hr & Hi & _). destruct v; try discriminate Hi.
  exists (p :: ps). split; [reflexivity|]. cbn [forallb]. cbn [representable] in Hr. now rewrite Hp, Hr.
Qed.
Lemma multi_values vs : Forall (fun v => sendable TMultiPolygon v = true) vs ->
  exists ps, vs = map VMultiPolygon ps /\ forallb (forallb (forallb (forallb pointb))) ps = true.
Proof.
  induction 1 as [|v vs Hv _ (ps & -> & Hp)]; [now exists []|].
  apply sendable_spec in Hv as (Hr & Hi & _). destruct v; try discriminate Hi.
  exists (m :: ps). split; [reflexivity|]. cbn [forallb]. cbn [representable] in Hr. now rewrite Hp, Hr.
Qed.

Lemma map_map_id {A B} (f : A -> B) (g : B -> A) l : (forall a, g (f a) = a) -> map g (map f l) = l.
Proof. intros H. rewrite map_map. erewrite map_ext; [apply map_id|exact H]. Qed.

Lemma geo_column t vs : is_geo t = true ->
  Forall (fun v => sendable t v = true) vs -> fits t vs -> col_ok t (normal t) vs.
Proof.
  intros Hg Hs Hf. destruct t; try discriminate Hg; cbn [fits] in Hf; destruct Hf as [Hw Hf].
  - apply point_values in Hs as (ps & -> & Hp). rewrite lenN_map in Hw.
    destruct (point_column ps Hw Hp) as (bs & E & B & D). exists bs. split; [exact E|]. split; [assumption|].
    intros rest. rewrite lenN_map. cbn [deser]. rewrite check_rows_ok by assumption. rewrite D.
    now rewrite map_map.
  - apply ring_values in Hs as (ps & -> & Hp). rewrite lenN_map in Hw. rewrite map_map_id in Hf by reflexivity.
    destruct (ring_column ps Hw Hf Hp) as (bs & E & B & D). exists bs. split; [exact E|]. split; [assumption|].
    intros rest. rewrite lenN_map. cbn [deser]. rewrite check_rows_ok by assumption. rewrite D.
    now rewrite map_map.
  - apply polygon_values in Hs as (ps & -> & Hp). rewrite lenN_map in Hw. rewrite map_map_id in Hf by reflexivity.
    destruct (polygon_column ps Hw Hf Hp) as (bs & E & B & D). exists bs. split; [exact E|]. split; [assumption|].
    intros rest. rewrite lenN_map. cbn [deser]. rewrite check_rows_ok by assumption. rewrite D.
    now rewrite map_map.
  - apply multi_values in Hs as (ps & -> & Hp). rewrite lenN_map in Hw. rewrite map_map_id in Hf by reflexivity.
    destruct (multipolygon_column ps Hw Hf Hp) as (bs & E & B & D). exists bs. split; [exact E|]. split; [assumption|].
    intros rest. rewrite lenN_map. cbn [deser]. rewrite check_rows_ok by assumption. rewrite D.
    now rewrite map_map.
Qed.

(* ---------- leaf types ---------- *)
Lemma leaf_plain_or_geo t : ty_leaf t = true -> plain t = true \/ is_geo t = true.
Proof. destruct t; try discriminate; (left; reflexivity) || (right; reflexivity). Qed.

Lemma col_ok_ext t g h vs : (forall v, In v vs -> g v = h v) -> col_ok t g vs -> col_ok t h vs.
Proof.
  intros H (bs & E & B & D). exists bs. split; [assumption|]. split; [assumption|].
  intros rest. rewrite D. f_equal. f_equal. now apply map_ext_in.
Qed.

Lemma plain_column t vs : plain t = true ->
  Forall (fun v => sendable t v = true) vs -> fits t vs -> col_ok t (normal t) vs.
Proof.
  intros Hp Hs Hf. apply (col_ok_ext t (normal_null t)).
  - intros v Hv. rewrite Forall_forall in Hs. apply Hs, sendable_spec in Hv as (_ & Hi & _).
    unfold normal_null. now rewrite (not_null_plain t v Hp Hi).
  - apply leaf_column; [assumption|now apply fits_within in Hf|].
    rewrite Forall_forall in Hs. apply Forall_forall. intros v Hv.
    pose proof (sendable_spec t v (Hs v Hv)) as (Hr & Hi & _).
    split; [assumption|]. split; [now right|].
    apply fits_room in Hf; [|exact Hp]. rewrite Forall_forall in Hf. now apply Hf.
Qed.

(* ---------- Nullable ---------- *)
Definition mask_byte (v : value) : N := if is_null v then 1 else 0.

Lemma apply_mask_ok g vs :
  apply_mask (map mask_byte vs) (map g vs) = Ok (map (fun v => if is_null v then VNull else g v) vs).
Proof.
  induction vs as [|v t IH]; [reflexivity|]. cbn [map apply_mask]. rewrite IH. cbn [rbind].
  unfold mask_byte. destruct (is_null v); reflexivity.
Qed.

Lemma mask_bytes_ok vs : bytes_ok (map mask_byte vs).
Proof. apply Forall_forall. intros x Hx. apply in_map_iff in Hx as (v & <- & _). unfold mask_byte, byte_ok. destruct (is_null v); lia. Qed.

Lemma nullable_column t g vs : within (lenN vs) -> col_ok t g vs ->
  col_ok (TNullable t) (fun v => if is_null v then VNull else g v) vs.
Proof.
  intros Hw (bs & E & B & D). exists (map mask_byte vs ++ bs). split.
  { cbn [ser]. rewrite E. reflexivity. }
  split; [apply Forall_app; split; [apply mask_bytes_ok|assumption]|].
  intros rest. cbn [deser]. rewrite check_rows_ok by assumption. unfold rdbind.
  rewrite <- app_assoc. rewrite read_exact_app' by (symmetry; apply lenN_map). cbn [rbind].
  rewrite D. cbn [rbind]. rewrite apply_mask_ok. reflexivity.
Qed.

(* ---------- tuples ---------- *)
Definition deser_cols (rows : N) :=
  fix go (ts : list ty) (tuples : list (list value)) : rd (list (list value)) :=
    match ts with
    | [] => rret tuples
    | t1 :: ts' => col <~ deser t1 rows ;;; fun inp => tuples' <- push_column tuples col ;; go ts' tuples' inp
    end.

Lemma deser_tuple_eq ts rows : deser (TTuple ts) rows =
  check_rows rows (tuples <~ deser_cols rows ts (repeat [] (N.to_nat rows)) ;;; rret (map VTuple tuples)).
Proof. reflexivity. Qed.

Lemma push_column_ok {X} (acc : list (list value)) (f : X -> value) (rows : list X) :
  length acc = length rows ->
  push_column acc (map f rows) = Ok (zip_with (fun a r => a ++ [f r]) acc rows).
Proof.
  revert rows; induction acc as [|a acc IH]; intros [|r rows] H; try discriminate H; [reflexivity|].
  cbn [map push_column zip_with]. rewrite IH by (now injection H). reflexivity.
Qed.

Definition row_ok (ts : list ty) (r : list value) : Prop :=
  lenN ts = lenN r /\ forallb representable r = true /\
  zip_all inner_validate ts r = true /\ zip_all shape_ok ts r = true.

Definition fits_cols :=
  fix go (ts : list ty) (rows : list (list value)) : Prop :=
    match ts with
    | [] => True
    | t1 :: ts' =>
        fits t1 (flat_map (fun r => match r with [] => [] | x :: _ => [x] end) rows)
        /\ go ts' (map (@tl value) rows)
    end.

Lemma zip_with_length {A B C} (f : A -> B -> C) l m : length l = length m -> length (zip_with f l m) = length m.
Proof. revert m; induction l as [|x l IH]; intros [|y m] H; try discriminate H; [reflexivity|]. cbn. f_equal. apply IH. now injection H. Qed.

Lemma cols_ok ts :
  Forall (fun t => forall vs, validate t = true -> Forall (fun v => sendable t v = true) vs ->
                   fits t vs -> col_ok t (normal t) vs) ts ->
  forallb validate ts = true ->
  forall rows, Forall (row_ok ts) rows -> fits_cols ts rows ->
  exists bs, ser_cols ser ts rows = Ok bs /\ bytes_ok bs /\
    forall acc rest, length acc = length rows ->
      deser_cols (lenN rows) ts acc (bs ++ rest)
      = Ok (zip_with (fun a r => a ++ zip_with normal ts r) acc rows, rest).
Proof.
  induction 1 as [|t1 ts H1 _ IH]; intros Hval rows Hrows Hfits.
  - exists []. split; [reflexivity|]. split; [constructor|]. intros acc rest HL.
    cbn [deser_cols app]. unfold rret. f_equal. f_equal. clear -HL.
    revert rows HL; induction acc as [|a acc IH]; intros [|r rows] HL; try discriminate HL; [reflexivity|].
    cbn [zip_with]. rewrite app_nil_r, <- IH by (now injection HL). reflexivity.
  - cbn [forallb] in Hval. apply andb_true_iff in Hval as [Hv1 Hvs].
    cbn [fits_cols] in Hfits. destruct Hfits as [Hf1 Hfs].
    assert (HS : exists hts : list (value * list value), rows = map (fun p => fst p :: snd p) hts).
    { clear -Hrows. induction Hrows as [|r rows Hr _ (hts & ->)]; [now exists []|].
      destruct Hr as (HL & _). destruct r as [|x r]; [rewrite lenN_cons in HL; unfold lenN at 2 in HL; cbn in HL; lia|].
      now exists ((x, r) :: hts). }
    destruct HS as [hts ->].
    assert (Hh : heads (map (fun p => fst p :: snd p) hts) = map fst hts).
    { clear. unfold heads. induction hts as [|p t IH]; [reflexivity|]. cbn [map flat_map app fst snd]. f_equal. exact IH. }
    assert (Ht : tails (map (fun p => fst p :: snd p) hts) = map snd hts).
    { clear. unfold tails. now rewrite map_map. }
    unfold heads in Hh. rewrite Hh in Hf1. fold (@heads) in Hh. unfold tails in Ht. rewrite Ht in Hfs.
    assert (Hrow : Forall (fun v => sendable t1 v = true) (map fst hts) /\ Forall (row_ok ts) (map snd hts)).
    { clear -Hrows. induction hts as [|[x r] hts IH]; [split; constructor|].
      inversion Hrows as [|y l Hr Hl]; subst. destruct (IH Hl) as [A B]. clear IH.
      destruct Hr as (HL & Hrep & Hiv & Hso). cbn [fst snd] in *. cbn [forallb zip_all] in *.
      apply andb_true_iff in Hrep as [? ?]. apply andb_true_iff in Hiv as [? ?]. apply andb_true_iff in Hso as [? ?].
      rewrite !lenN_cons in HL. cbn [map fst snd]. split; constructor; try assumption.
      - now apply sendable_intro.
      - split; [lia|auto]. }
    destruct Hrow as [Hc1 Hcs].
    destruct (H1 (map fst hts) Hv1 Hc1 Hf1) as (b1 & E1 & B1 & D1).
    destruct (IH Hvs (map snd hts) Hcs Hfs) as (bs & E & B & D).
    exists (b1 ++ bs). split.
    { cbn [ser_cols]. unfold heads, tails. rewrite Hh, Ht, E1. cbn [rbind].
      change (ser_cols ser ts (map snd hts)) with (ser_cols ser ts (map snd hts)).
      rewrite E. reflexivity. }
    split; [now apply Forall_app|].
    intros acc rest HL. cbn [deser_cols]. unfold rdbind. rewrite <- app_assoc.
    rewrite map_length in HL.
    rewrite lenN_map. rewrite lenN_map in D1. rewrite D1. cbn [rbind]. rewrite map_map.
    rewrite push_column_ok by assumption. cbn [rbind].
    rewrite lenN_map in D. fold (deser_cols (lenN hts)).
    rewrite D by (rewrite zip_with_length, ?map_length; auto).
    f_equal. f_equal. clear -HL. revert hts HL.
    induction acc as [|a acc IH]; intros [|[x r] hts] HL; try discriminate HL; [reflexivity|].
    cbn [map fst snd zip_with]. f_equal; [|apply IH; now injection HL].
    now rewrite <- app_assoc.
Qed.

Lemma tuple_values ts vs : Forall (fun v => sendable (TTuple ts) v = true) vs ->
  exists rows, vs = map VTuple rows /\ Forall (row_ok ts) rows.
Proof.
  induction 1 as [|v vs Hv _ (rows & -> & Hp)]; [now exists []|].
  apply sendable_spec in Hv as (Hr & Hi & Hs). destruct v; try discriminate Hi.
  exists (l :: rows). split; [reflexivity|]. constructor; [|assumption].
  cbn [representable] in Hr. cbn [inner_validate] in Hi. cbn [shape_ok] in Hs.
  apply andb_true_iff in Hs as [H1 H2]. split; [lia|auto].
Qed.

Lemma zip_with_repeat_nil {B} (f : B -> list value) (rows : list B) :
  zip_with (fun a r => a ++ f r) (repeat [] (length rows)) rows = map f rows.
Proof. induction rows as [|r t IH]; [reflexivity|]. cbn. now rewrite IH. Qed.

(* ---------- maps ---------- *)
Lemma split_map_ok p (kvs : list (list value * list value)) :
  Forall (fun kv => lenN (fst kv) = lenN (snd kv)) kvs ->
  split_map p (offsets_from p (map (fun kv => lenN (fst kv)) kvs)) (concat (map fst kvs)) (concat (map snd kvs))
  = Ok (map (fun kv => VMap (fst kv) (snd kv)) kvs).
Proof.
  intros H. revert p; induction H as [|[k v] kvs Hkv _ IH]; intros p; [reflexivity|].
  cbn [fst snd] in Hkv. cbn [map fst snd offsets_from split_map concat].
  replace (p + lenN k - p) with (lenN k) by lia.
  rewrite !lenN_app.
  destruct (N.ltb_spec (lenN k + lenN (concat (map fst kvs))) (lenN k)); [lia|].
  destruct (N.ltb_spec (lenN v + lenN (concat (map snd kvs))) (lenN k)); [lia|]. cbn [orb].
  replace (N.max p (p + lenN k)) with (p + lenN k) by lia.
  rewrite takeN_app_len, dropN_app_len, Hkv, takeN_app_len, dropN_app_len.
  rewrite <- Hkv, IH. reflexivity.
Qed.

Lemma map_values k w vs : Forall (fun v => sendable (TMap k w) v = true) vs ->
  exists kvs, vs = map (fun kv => VMap (fst kv) (snd kv)) kvs /\
    Forall (fun kv => lenN (fst kv) = lenN (snd kv)) kvs /\
    Forall (fun v => sendable k v = true) (concat (map fst kvs)) /\
    Forall (fun v => sendable w v = true) (concat (map snd kvs)).
Proof.
  induction 1 as [|v vt Hv _ (kvs & -> & HL & Hk & Hw)]; [exists []; repeat split; constructor|].
  apply sendable_spec in Hv as (Hr & Hi & Hs). destruct v as [| | | | | | | | | | | | | | | | | | | | |ks vs0| | | | | |]; try discriminate Hi.
  cbn [representable] in Hr. cbn [inner_validate] in Hi. cbn [shape_ok] in Hs.
  apply andb_true_iff in Hr as [R1 R2]. apply andb_true_iff in Hi as [I1 I2].
  apply andb_true_iff in Hs as [S S2]. apply andb_true_iff in S as [S0 S1].
  exists ((ks, vs0) :: kvs). split; [reflexivity|]. cbn [map fst snd concat].
  rewrite forallb_forall in R1, R2, I1, I2, S1, S2.
  split; [constructor; [cbn [fst snd]; lia|assumption]|].
  split; apply Forall_app; split; try assumption; apply Forall_forall; intros x Hx; apply sendable_intro; auto.
Qed.

Lemma map_lenN_fst_map {A} (f : A -> A) (g : A -> A) (kvs : list (list A * list A)) :
  map (fun kv => lenN (fst kv)) (map (fun kv => (map f (fst kv), map g (snd kv))) kvs)
  = map (fun kv => lenN (fst kv)) kvs.
Proof. rewrite map_map. apply map_ext. intros kv. cbn [fst]. apply lenN_map. Qed.

Lemma map_column k w vs :
  (forall vs, Forall (fun v => sendable k v = true) vs -> fits k vs -> col_ok k (normal k) vs) ->
  (forall vs, Forall (fun v => sendable w v = true) vs -> fits w vs -> col_ok w (normal w) vs) ->
  Forall (fun v => sendable (TMap k w) v = true) vs -> fits (TMap k w) vs ->
  col_ok (TMap k w) (normal (TMap k w)) vs.
Proof.
  intros IHk IHw Hs Hf. apply map_values in Hs as (kvs & -> & HL & Hk & Hw).
  cbn [fits] in Hf. destruct Hf as (Hn & Hfk & Hfw).
  rewrite flat_map_concat_map, map_map in Hfk, Hfw. cbn [map_keys map_vals] in Hfk, Hfw.
  change (fits k (concat (map fst kvs))) in Hfk. change (fits w (concat (map snd kvs))) in Hfw.
  destruct (IHk _ Hk Hfk) as (bk & Ek & Bk & Dk). destruct (IHw _ Hw Hfw) as (bw & Ew & Bw & Dw).
  assert (Hm : mapM unwrap_map (map (fun kv => VMap (fst kv) (snd kv)) kvs) = Ok kvs).
  { clear -HL. induction HL as [|[a b] t H _ IH]; [reflexivity|]. cbn [map mapM unwrap_map fst snd].
    cbn [fst snd] in H. rewrite H, N.eqb_refl. cbn [rbind]. rewrite IH. reflexivity. }
  eexists. split.
  { cbn [ser]. rewrite Hm. cbn [rbind]. rewrite Ek. cbn [rbind]. rewrite Ew. cbn [rbind]. reflexivity. }
  split; [repeat (apply Forall_app; split); try assumption; apply u64s_ok|].
  intros rest. cbn [deser]. rewrite lenN_map in *. rewrite check_rows_ok by assumption.
  destruct kvs as [|kv0 kvs'].
  { cbn [map concat] in *. rewrite ser_nil in Ek, Ew. injection Ek as <-. injection Ew as <-. reflexivity. }
  rewrite lenN_nonzero by discriminate. remember (kv0 :: kvs') as kvs eqn:Hkvs.
  assert (Hne : map fst kvs <> []) by (rewrite Hkvs; discriminate). clear Hkvs kv0 kvs'.
  unfold rdbind. rewrite <- !app_assoc.
  assert (Hoff : map (fun kv : list value * list value => lenN (fst kv)) kvs = map lenN (map fst kvs)) by (now rewrite map_map).
  replace (N.to_nat (lenN kvs)) with (length (offsets_from 0 (map (fun kv : list value * list value => lenN (fst kv)) kvs)))
    by (rewrite offsets_length, map_length; unfold lenN; lia).
  rewrite read_u64s.
  2:{ rewrite Hoff. eapply Forall_impl; [|apply offsets_bound]. cbn. intros a Ha.
      apply fits_within in Hfk. unfold within in Hfk. lia. }
  cbn [rbind].
  assert (Hlast : last (offsets_from 0 (map (fun kv : list value * list value => lenN (fst kv)) kvs)) 0 = lenN (concat (map fst kvs))).
  { rewrite Hoff, offsets_last by assumption. lia. }
  rewrite Hlast, Dk. cbn [rbind]. rewrite lenN_map, N.eqb_refl. cbn [negb].
  assert (Heq : lenN (concat (map fst kvs)) = lenN (concat (map snd kvs))).
  { clear -HL. induction HL as [|[a b] t H _ IH]; [reflexivity|]. cbn [map fst snd concat]. rewrite !lenN_app.
    cbn [fst snd] in H. lia. }
  rewrite Heq, Dw. cbn [rbind]. rewrite lenN_map, N.eqb_refl. cbn [negb].
  pose proof (split_map_ok 0 (map (fun kv => (map (normal k) (fst kv), map (normal w) (snd kv))) kvs)) as HSM.
  rewrite map_lenN_fst_map, !map_map in HSM. cbn [fst snd] in HSM.
  rewrite !concat_map, !map_map. rewrite HSM.
  - reflexivity.
  - apply Forall_forall. intros x Hx. apply in_map_iff in Hx as (kv & <- & Hin). cbn [fst snd].
    rewrite !lenN_map. rewrite Forall_forall in HL. now apply HL.
Qed.

(* ---------- arrays ---------- *)
Lemma array_values t vs : Forall (fun v => sendable (TArray t) v = true) vs ->
  exists ls, vs = map VArray ls /\ Forall (fun v => sendable t v = true) (concat ls).
Proof.
  induction 1 as [|v vs Hv _ (ls & -> & Hl)]; [exists []; split; constructor|].
  apply sendable_spec in Hv as (Hr & Hi & Hs). destruct v; try discriminate Hi.
  cbn [representable] in Hr. cbn [inner_validate] in Hi. cbn [shape_ok] in Hs.
  exists (l :: ls). split; [reflexivity|]. cbn [concat]. apply Forall_app. split; [|assumption].
  rewrite forallb_forall in Hr, Hi, Hs. apply Forall_forall. intros x Hx. apply sendable_intro; auto.
Qed.

Lemma mapM_Ok {A} (l : list A) : mapM Ok l = Ok l.
Proof. induction l as [|x t IH]; [reflexivity|]. cbn [mapM rbind]. now rewrite IH. Qed.

Lemma array_column t vs :
  (forall vs, Forall (fun v => sendable t v = true) vs -> fits t vs -> col_ok t (normal t) vs) ->
  Forall (fun v => sendable (TArray t) v = true) vs -> fits (TArray t) vs ->
  col_ok (TArray t) (normal (TArray t)) vs.
Proof.
  intros IH Hs Hf. apply array_values in Hs as (ls & -> & Hl).
  cbn [fits] in Hf. destruct Hf as (Hn & Hf). rewrite flat_map_concat_map, map_map in Hf. cbn [elems] in Hf.
  rewrite map_id in Hf.
  destruct (array_generic_ok unwrap_array (ser t) (deser t) Ok VArray (map VArray ls) ls
              (map (normal t) (concat ls)) (map (map (normal t)) ls)) as (bs & E & B & D).
  - clear. induction ls as [|x t' IH]; [reflexivity|]. cbn [map mapM unwrap_array rbind]. now rewrite IH.
  - now apply fits_within in Hf.
  - exact (IH _ Hl Hf).
  - apply ser_nil.
  - rewrite mapM_Ok. now rewrite concat_map.
  - apply map_lenN_map.
  - exists bs. split; [exact E|]. split; [assumption|]. intros rest. cbn [deser].
    rewrite check_rows_ok by assumption. rewrite D. now rewrite !map_map.
Qed.
