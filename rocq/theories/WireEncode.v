(** What the writer sends conforms to the Native format (WireSpec.v). *)
From Verif Require Import Base Io IoProofs Types Ser Deser ColumnSpec ColumnProofs ColumnRoundtrip LowCardProofs WireProofs DecodeProofs WireSpec WireDecode.

Lemma word_le n x w : w = 8 * N.of_nat n -> x < 2 ^ w -> word (N.of_nat n) x (le_bytes n x).
Proof.
  intros -> H. split; [apply le_bytes_lenN|]. split; [apply le_bytes_ok|].
  rewrite number_le_val. apply le_val_bytes. now rewrite pow256_2.
Qed.
Lemma word_signed w x : signedb (ibits w) x = true ->
  word (iw_width w) (twos (ibits w) x) (le_bytes (ibytes w) (s2u (ibits w) x)).
Proof.
  intros H. apply signedb_spec in H. rewrite twos_s2u by (assumption || apply ibits_pos).
  replace (iw_width w) with (N.of_nat (ibytes w)) by (destruct w; reflexivity).
  apply (word_le _ _ (ibits w)); [reflexivity|]. apply s2u_bound.
Qed.
Lemma words_u64s xs : Forall (fun x => x < 2 ^ 64) xs -> words 8 xs (u64s xs).
Proof.
  intros H. exists (map (le_bytes 8) xs). split; [|reflexivity].
  induction H as [|x xs Hx _ IH]; constructor; [|assumption]. now apply (word_le 8 x 64).
Qed.

Lemma sized_wire t v : sized t = true -> representable v = true -> (inner_validate t v = true \/ v = default_value t) ->
  exists bs, enc_sized v = Ok bs /\ scalar_wire t (normal t v) bs.
Proof.
  intros Ht Hr Hv.
  destruct t as [w| |w| | | | |s|s|s|s| |n| | |z|p z| | | | | | |l|l| | | | |]; try discriminate Ht;
    destruct v; try (destruct Hv as [Hv|Hv]; [discriminate Hv|discriminate Hv]);
    try (destruct Hv as [Hv|Hv]; [destruct w; discriminate Hv|discriminate Hv]);
    cbn [inner_validate default_value] in Hv; cbn [representable] in Hr; cbn [enc_sized].
  - assert (w = w0) as <- by (destruct Hv as [Hv|Hv]; [destruct w, w0; (discriminate Hv || reflexivity)|congruence]).
    eexists. split; [reflexivity|]. replace (normal (TInt w) (VInt w x)) with (VInt w x) by (now destruct w).
    split; [now destruct w|]. split; [exact Hr|]. cbn beta iota.
    replace (8 * iw_width w) with (ibits w) by (now destruct w). exact (word_signed w x Hr).
  - (* Int8 column, UInt8 value *)
    destruct Hv as [Hv|Hv]; [|discriminate Hv]. destruct w; try discriminate Hv. destruct w0; try discriminate Hv.
    eexists. split; [reflexivity|]. cbn [normal]. split; [reflexivity|]. apply N.ltb_lt in Hr. change (2 ^ ibits I8) with 256 in Hr.
    assert (HS : signedb (ibits I8) (if x <? 128 then Z.of_N x else (Z.of_N x - 256)%Z) = true).
    { unfold signedb. change (2 ^ Z.of_N (ibits I8 - 1))%Z with 128%Z. destruct (N.ltb_spec x 128); lia. }
    split; [exact HS|].
    replace (le_bytes (ibytes I8) x) with (le_bytes (ibytes I8) (s2u (ibits I8) (if x <? 128 then Z.of_N x else (Z.of_N x - 256)%Z))).
    { exact (word_signed I8 _ HS). }
    f_equal. unfold s2u. change (2 ^ Z.of_N (ibits I8))%Z with 256%Z. destruct (N.ltb_spec x 128).
    + rewrite Z.mod_small by lia. lia.
    + rewrite <- (Z.mod_unique (Z.of_N x - 256) 256 (-1) (Z.of_N x)) by lia. lia.
  - eexists. split; [reflexivity|]. split; [reflexivity|]. split; [exact Hr|reflexivity].
  - assert (w = w0) as <- by (destruct Hv as [Hv|Hv]; [now apply iw_eqb_eq|congruence]).
    eexists. split; [reflexivity|]. replace (normal (TUInt w) (VUInt w x)) with (VUInt w x) by (now destruct w).
    split; [now destruct w|]. split; [exact Hr|]. cbn beta iota. replace (iw_width w) with (N.of_nat (ibytes w)) by (now destruct w).
    apply (word_le _ _ (ibits w)); [reflexivity|]. now apply N.ltb_lt.
  - eexists. split; [reflexivity|]. split; [reflexivity|]. split; [exact Hr|reflexivity].
  - eexists. split; [reflexivity|]. split; [reflexivity|]. split; [exact Hr|]. apply N.ltb_lt in Hr. exact (word_le 4 _ 32 eq_refl Hr).
  - eexists. split; [reflexivity|]. split; [reflexivity|]. split; [exact Hr|]. apply N.ltb_lt in Hr. exact (word_le 8 _ 64 eq_refl Hr).
  - eexists. split; [reflexivity|]. split; [reflexivity|]. split; [exact Hr|]. apply N.ltb_lt in Hr. exact (word_le 2 _ 16 eq_refl Hr).
  - eexists. split; [reflexivity|]. split; [destruct Hv as [Hv|Hv]; [exact Hv|injection Hv as -> _; apply N.eqb_refl]|].
    split; [exact Hr|]. exact (word_signed I32 _ Hr).
  - eexists. split; [reflexivity|]. split; [destruct Hv as [Hv|Hv]; [exact Hv|injection Hv as -> _; apply N.eqb_refl]|].
    split; [exact Hr|]. exact (word_signed I64 _ Hr).
  - eexists. split; [reflexivity|]. split; [destruct Hv as [Hv|Hv]; [exact Hv|injection Hv as -> _; apply N.eqb_refl]|].
    split; [exact Hr|]. exact (word_signed I128 _ Hr).
  - eexists. split; [reflexivity|]. split; [destruct Hv as [Hv|Hv]; [exact Hv|injection Hv as -> _; apply N.eqb_refl]|].
    split; [exact Hr|]. reflexivity.
  - (* Uuid *) eexists. split; [reflexivity|]. split; [reflexivity|]. split; [exact Hr|]. apply N.ltb_lt in Hr.
    exists (le_bytes 8 (N.shiftr n 64)), (le_bytes 8 (n mod 2 ^ 64)). rewrite N.shiftr_div_pow2.
    split; [|split; [|reflexivity]].
    + apply (word_le 8 _ 64 eq_refl). apply N.div_lt_upper_bound; [discriminate|]. rewrite <- N.pow_add_r. exact Hr.
    + apply (word_le 8 _ 64 eq_refl). apply N.mod_lt. discriminate.
  - eexists. split; [reflexivity|]. split; [reflexivity|]. split; [exact Hr|]. apply N.ltb_lt in Hr. exact (word_le 2 _ 16 eq_refl Hr).
  - eexists. split; [reflexivity|]. split; [destruct Hv as [Hv|Hv]; [exact Hv|injection Hv as -> _; apply N.eqb_refl]|].
    split; [exact Hr|]. apply N.ltb_lt in Hr. exact (word_le 4 _ 32 eq_refl Hr).
  - eexists. split; [reflexivity|]. split.
    { destruct Hv as [Hv|Hv]; [exact Hv|]. injection Hv as -> _ ->. cbn [normal same_scalar]. now rewrite !N.eqb_refl. }
    split; [exact Hr|]. apply N.ltb_lt in Hr. exact (word_le 8 _ 64 eq_refl Hr).
  - eexists. split; [reflexivity|]. split; [reflexivity|]. split; [exact Hr|]. apply N.ltb_lt in Hr. exact (word_le 4 _ 32 eq_refl Hr).
  - eexists. split; [reflexivity|]. split; [reflexivity|]. split; [exact Hr|reflexivity].
  - eexists. split; [reflexivity|]. split; [reflexivity|]. split; [exact Hr|]. exact (word_signed I8 _ Hr).
  - eexists. split; [reflexivity|]. split; [reflexivity|]. split; [exact Hr|]. exact (word_signed I16 _ Hr).
Qed.

Definition leaf_wire (t : ty) : value -> list N -> Prop :=
  match t with TString => string_wire (2 ^ 30) | TFixedString n => fixed_wire n | _ => scalar_wire t end.

Lemma emit_wire t bs : stringy t = true -> bytes_ok bs -> string_room t (VString bs) ->
  leaf_wire t (VString (match t with TFixedString n => fixed_view n bs | _ => bs end)) (emit_bytes t bs).
Proof.
  intros Ht Hb Hf. destruct t; try discriminate Ht; cbn [leaf_wire].
  - cbn [string_room str_len] in Hf. exists bs. split; [reflexivity|]. split; [exact Hf|]. split; [exact Hb|].
    cbn [emit_bytes]. unfold write_string. unfold within in Hf. rewrite write_var_uint_leb128 by lia. reflexivity.
  - split; [apply emit_fixed|]. split; [exact Hf|]. split; [now apply (emit_bytes_ok (TFixedString n))|]. now rewrite emit_fixed_view.
Qed.

Lemma default_rep t : plain t = true -> representable (default_value t) = true.
Proof. destruct t; try discriminate; try (destruct w); reflexivity. Qed.

Lemma enc_leaf_wire t v : plain t = true -> leaf_entry t v ->
  exists bs, enc_leaf t v = Ok bs /\ leaf_wire t (normal_null t v) bs.
Proof.
  intros Ht (Hr & Hv & Hf). destruct (sized t) eqn:Hs.
  - unfold enc_leaf, normal_null, justify_null. rewrite Hs.
    assert (HL : leaf_wire t = scalar_wire t) by (destruct t; try discriminate Hs; reflexivity). rewrite HL.
    destruct (is_null v) eqn:Hn.
    + apply sized_wire; [assumption|now apply default_rep|now right].
    + apply sized_wire; [assumption|assumption|]. destruct Hv as [C|Hv]; [discriminate|now left].
  - unfold plain in Ht. rewrite Hs in Ht. cbn in Ht. unfold enc_leaf, normal_null. rewrite Hs.
    destruct (is_null v) eqn:Hn.
    + destruct v; try discriminate Hn. exists (emit_bytes t []). split; [destruct t; try discriminate Ht; reflexivity|].
      replace (normal t (default_value t)) with (VString (match t with TFixedString n => fixed_view n [] | _ => [] end))
        by (destruct t; try discriminate Ht; reflexivity).
      apply emit_wire; [assumption|constructor|]. exact (room_default _ _ Hf).
    + destruct Hv as [C|Hv]; [discriminate|].
      destruct v; try (destruct t; discriminate).
      * exists (emit_bytes t bs). split; [reflexivity|].
        replace (normal t (VString bs)) with (VString (match t with TFixedString n => fixed_view n bs | _ => bs end))
          by (destruct t; try discriminate Ht; reflexivity).
        apply emit_wire; [assumption|now apply forallb_bytes|assumption].
      * assert (Hb : forallb is_byte_value l = true) by (destruct t; try discriminate Ht; exact Hv).
        destruct (byte_values l Hb Hr) as [E B]. exists (emit_bytes t (map spec_byte l)). split.
        { unfold enc_string, justify_null. cbn [is_null]. rewrite E. reflexivity. }
        replace (normal t (VArray l)) with (VString (match t with TFixedString n => fixed_view n (map spec_byte l) | _ => map spec_byte l end))
          by (destruct t; try discriminate Ht; reflexivity).
        apply emit_wire; [assumption|assumption|]. destruct t; try discriminate Ht; cbn [string_room str_len] in *; now rewrite ?lenN_map.
Qed.

Definition wire_ok (t : ty) (g : value -> value) (vs : list value) : Prop :=
  exists bs, ser t vs = Ok bs /\ encodes (2 ^ 30) t (map g vs) bs.

Lemma wire_ok_ext t g h vs : (forall v, In v vs -> g v = h v) -> wire_ok t g vs -> wire_ok t h vs.
Proof. intros H (bs & E & W). exists bs. split; [assumption|]. now rewrite <- (map_ext_in _ _ _ H). Qed.

Lemma leaf_column_wire t vs : plain t = true -> within (lenN vs) -> Forall (leaf_entry t) vs -> wire_ok t (normal_null t) vs.
Proof.
  intros Ht Hl Hvs.
  assert (H : exists parts, mapM (enc_leaf t) vs = Ok parts /\ Forall2 (leaf_wire t) (map (normal_null t) vs) parts).
  { clear Hl. induction Hvs as [|v vs Hv _ (parts & E & F)]; [exists []; split; [reflexivity|constructor]|].
    destruct (enc_leaf_wire t v Ht Hv) as (b & Eb & Wb). exists (b :: parts). cbn [mapM map]. rewrite Eb. cbn [rbind]. rewrite E.
    split; [reflexivity|now constructor]. }
  destruct H as (parts & E & F). exists (concat parts). rewrite ser_plain by assumption. rewrite E. split; [reflexivity|].
  destruct (sized t) eqn:Hs.
  - apply enc_scalar; [now rewrite lenN_map| |destruct t; try discriminate Hs; discriminate].
    replace (scalar_wire t) with (leaf_wire t) by (destruct t; try discriminate Hs; reflexivity). exact F.
  - destruct t; try discriminate Hs; try discriminate Ht.
    + apply enc_str; [now rewrite lenN_map|exact F].
    + apply enc_fixed; [now rewrite lenN_map|exact F].
Qed.

(* ---------- arrays ---------- *)
Lemma offsets_words {A} (ls : list (list A)) : within (lenN (concat ls)) -> words 8 (running 0 (map lenN ls)) (u64s (offsets_from 0 (map lenN ls))).
Proof.
  intros H. rewrite running_offsets. apply words_u64s. eapply Forall_impl; [|apply offsets_bound]. cbn beta. intros a Ha.
  unfold within in H. lia.
Qed.

Lemma array_column_wire t vs :
  (forall vs, Forall (fun v => sendable t v = true) vs -> fits t vs -> wire_ok t (normal t) vs) ->
  Forall (fun v => sendable (TArray t) v = true) vs -> fits (TArray t) vs ->
  wire_ok (TArray t) (normal (TArray t)) vs.
Proof.
  intros IH Hs Hf. apply array_values in Hs as (ls & -> & Hl).
  cbn [fits] in Hf. destruct Hf as (Hn & Hf). rewrite flat_map_concat_map, map_map in Hf. cbn [elems] in Hf.
  rewrite map_id in Hf. destruct (IH _ Hl Hf) as (bs & E & W). pose proof (fits_within _ _ Hf) as Hw.
  exists (u64s (offsets_from 0 (map lenN ls)) ++ bs). split.
  { cbn [ser]. unfold ser_array_generic.
    assert (HM : mapM unwrap_array (map VArray ls) = Ok ls).
    { clear. induction ls as [|x t' IH]; [reflexivity|]. cbn [map mapM unwrap_array rbind]. now rewrite IH. }
    rewrite HM. cbn [rbind]. rewrite E. reflexivity. }
  rewrite map_map. cbn [normal]. rewrite <- (map_map (map (normal t)) VArray). rewrite lenN_map in Hn.
  apply enc_arr; [now rewrite lenN_map| |now rewrite <- concat_map].
  rewrite map_lenN_map. now apply offsets_words.
Qed.

Lemma map_column_wire k w vs :
  (forall vs, Forall (fun v => sendable k v = true) vs -> fits k vs -> wire_ok k (normal k) vs) ->
  (forall vs, Forall (fun v => sendable w v = true) vs -> fits w vs -> wire_ok w (normal w) vs) ->
  Forall (fun v => sendable (TMap k w) v = true) vs -> fits (TMap k w) vs ->
  wire_ok (TMap k w) (normal (TMap k w)) vs.
Proof.
  intros IHk IHw Hs Hf. apply map_values in Hs as (kvs & -> & HL & Hk & Hw).
  cbn [fits] in Hf. destruct Hf as (Hn & Hfk & Hfw).
  rewrite flat_map_concat_map, map_map in Hfk, Hfw. cbn [map_keys map_vals] in Hfk, Hfw.
  change (fits k (concat (map fst kvs))) in Hfk. change (fits w (concat (map snd kvs))) in Hfw.
  destruct (IHk _ Hk Hfk) as (bk & Ek & Wk). destruct (IHw _ Hw Hfw) as (bw & Ew & Ww).
  assert (Hm : mapM unwrap_map (map (fun kv => VMap (fst kv) (snd kv)) kvs) = Ok kvs).
  { clear -HL. induction HL as [|[a b] t H _ IH]; [reflexivity|]. cbn [map mapM unwrap_map fst snd].
    cbn [fst snd] in H. rewrite H, N.eqb_refl. cbn [rbind]. rewrite IH. reflexivity. }
  eexists. split.
  { cbn [ser]. rewrite Hm. cbn [rbind]. rewrite Ek. cbn [rbind]. rewrite Ew. cbn [rbind]. reflexivity. }
  rewrite map_map. cbn [normal].
  rewrite <- (map_map (fun kv => (map (normal k) (fst kv), map (normal w) (snd kv))) (fun r : list value * list value => VMap (fst r) (snd r))).
  rewrite lenN_map in Hn. apply enc_map.
  - now rewrite lenN_map.
  - apply Forall_forall. intros x Hx. apply in_map_iff in Hx as (kv & <- & Hin). cbn [fst snd].
    rewrite !lenN_map. rewrite Forall_forall in HL. now apply HL.
  - rewrite map_lenN_fst_map. rewrite <- (map_map fst lenN). apply offsets_words. now apply fits_within in Hfk.
  - rewrite map_map. cbn [fst]. rewrite <- (map_map fst (map (normal k))), <- concat_map. exact Wk.
  - rewrite map_map. cbn [snd]. rewrite <- (map_map snd (map (normal w))), <- concat_map. exact Ww.
Qed.

(* ---------- geo ---------- *)
Lemma geo_level_wire {A} (T TI : ty) iser unwrap (VI : A -> value) (VO : list A -> value) (xs : list (list A)) :
  (forall l, unwrap (VO l) = Ok (map VI l)) ->
  within (lenN (concat xs)) ->
  (exists bs, iser (map VI (concat xs)) = Ok bs /\ encodes (2 ^ 30) TI (map VI (concat xs)) bs) ->
  exists offs items, ser_array_generic unwrap iser (map VO xs) = Ok (offs ++ items) /\
    words 8 (running 0 (map lenN xs)) offs /\ encodes (2 ^ 30) TI (map VI (concat xs)) items.
Proof.
  intros Hu Hw (bs & E & W). exists (u64s (offsets_from 0 (map lenN xs))), bs. split; [|split; [now apply offsets_words|assumption]].
  unfold ser_array_generic.
  assert (HM : mapM unwrap (map VO xs) = Ok (map (map VI) xs)).
  { clear -Hu. induction xs as [|x t' IH]; [reflexivity|]. cbn [map mapM]. rewrite Hu. cbn [rbind]. now rewrite IH. }
  rewrite HM. cbn [rbind]. rewrite <- concat_map, E. cbn [rbind]. now rewrite map_lenN_map.
Qed.

Lemma point_wire ps : within (lenN ps) -> forallb pointb ps = true ->
  exists bs, ser_point (map VPoint ps) = Ok bs /\ encodes (2 ^ 30) TPoint (map VPoint ps) bs.
Proof.
  intros Hw Hp.
  assert (HF : forall xs : list N, ser_sized TFloat64 (map VFloat64 xs) = Ok (u64s xs)).
  { intros xs. unfold ser_sized. rewrite (mapM_ok_map _ (fun v => match v with VFloat64 x => le_bytes 8 x | _ => [] end)).
    - cbn [rmap]. unfold u64s. now rewrite map_map.
    - intros v Hv. apply in_map_iff in Hv as (x & <- & _). reflexivity. }
  assert (HM : mapM unwrap_point (map VPoint ps) = Ok ps).
  { clear. induction ps as [|p t IH]; [reflexivity|]. cbn [map mapM unwrap_point rbind]. now rewrite IH. }
  exists (u64s (map fst ps) ++ u64s (map snd ps)). split.
  - unfold ser_point. rewrite HM. cbn [rbind]. rewrite <- (map_map fst VFloat64), <- (map_map snd VFloat64), !HF. reflexivity.
  - apply enc_pt; [assumption| |]; apply words_u64s; apply Forall_forall; intros x Hx; apply in_map_iff in Hx as (p & <- & Hin);
      rewrite forallb_forall in Hp; apply Hp in Hin; unfold pointb in Hin; lia.
Qed.

Lemma ring_wire xs : within (lenN xs) -> ring_fits xs -> forallb (forallb pointb) xs = true ->
  exists bs, ser_ring (map VRing xs) = Ok bs /\ encodes (2 ^ 30) TRing (map VRing xs) bs.
Proof.
  intros Hw Hf Hp. rewrite forallb_concat in Hp.
  destruct (geo_level_wire TRing TPoint ser_point unwrap_ring VPoint VRing xs) as (offs & items & E & Ho & Hi); [reflexivity|exact Hf|now apply point_wire|].
  exists (offs ++ items). split; [exact E|]. now apply enc_rng.
Qed.
Lemma polygon_wire xs : within (lenN xs) -> polygon_fits xs -> forallb (forallb (forallb pointb)) xs = true ->
  exists bs, ser_polygon (map VPolygon xs) = Ok bs /\ encodes (2 ^ 30) TPolygon (map VPolygon xs) bs.
Proof.
  intros Hw [Hf1 Hf2] Hp. rewrite forallb_concat in Hp.
  destruct (geo_level_wire TPolygon TRing ser_ring unwrap_polygon VRing VPolygon xs) as (offs & items & E & Ho & Hi); [reflexivity|exact Hf1|now apply ring_wire|].
  exists (offs ++ items). split; [exact E|]. now apply enc_poly.
Qed.
Lemma multipolygon_wire xs : within (lenN xs) -> multi_fits xs -> forallb (forallb (forallb (forallb pointb))) xs = true ->
  exists bs, ser_multipolygon (map VMultiPolygon xs) = Ok bs /\ encodes (2 ^ 30) TMultiPolygon (map VMultiPolygon xs) bs.
Proof.
  intros Hw [Hf1 Hf2] Hp. rewrite forallb_concat in Hp.
  destruct (geo_level_wire TMultiPolygon TPolygon ser_polygon unwrap_multipolygon VPolygon VMultiPolygon xs) as (offs & items & E & Ho & Hi); [reflexivity|exact Hf1|now apply polygon_wire|].
  exists (offs ++ items). split; [exact E|]. now apply enc_mpoly.
Qed.

Lemma geo_column_wire t vs : is_geo t = true ->
  Forall (fun v => sendable t v = true) vs -> fits t vs -> wire_ok t (normal t) vs.
Proof.
  intros Hg Hs Hf. unfold wire_ok. replace (map (normal t) vs) with vs.
  2:{ symmetry. erewrite map_ext; [apply map_id|]. intros a. destruct t; try discriminate Hg; reflexivity. }
  destruct t; try discriminate Hg; cbn [fits] in Hf; destruct Hf as [Hw Hf]; cbn [ser].
  - apply point_values in Hs as (ps & -> & Hp). rewrite lenN_map in Hw. now apply point_wire.
  - apply ring_values in Hs as (ps & -> & Hp). rewrite lenN_map in Hw. rewrite (map_map_id VRing ring_of) in Hf by reflexivity. now apply ring_wire.
  - apply polygon_values in Hs as (ps & -> & Hp). rewrite lenN_map in Hw. rewrite (map_map_id VPolygon polygon_of) in Hf by reflexivity. now apply polygon_wire.
  - apply multi_values in Hs as (ps & -> & Hp). rewrite lenN_map in Hw. rewrite (map_map_id VMultiPolygon multipolygon_of) in Hf by reflexivity. now apply multipolygon_wire.
Qed.

Lemma plain_column_wire t vs : plain t = true ->
  Forall (fun v => sendable t v = true) vs -> fits t vs -> wire_ok t (normal t) vs.
Proof.
  intros Hp Hs Hf. apply (wire_ok_ext t (normal_null t)).
  - intros v Hv. rewrite Forall_forall in Hs. apply Hs, sendable_spec in Hv as (_ & Hi & _).
    unfold normal_null. now rewrite (not_null_plain t v Hp Hi).
  - apply leaf_column_wire; [assumption|now apply fits_within in Hf|].
    apply Forall_forall. intros v Hv. rewrite Forall_forall in Hs. pose proof (sendable_spec _ _ (Hs v Hv)) as (Hr & Hi & _).
    split; [assumption|]. split; [now right|]. apply fits_room in Hf; [|exact Hp]. rewrite Forall_forall in Hf. now apply Hf.
Qed.

(* ---------- nullable ---------- *)
Lemma nullable_column_wire t g vs : wire_ok t g vs ->
  wire_ok (TNullable t) (fun v => if is_null v then VNull else g v) vs.
Proof.
  intros (bs & E & W). eexists. split.
  { cbn [ser]. rewrite E. cbn [rbind]. reflexivity. }
  apply (enc_nul _ t _ (map g vs)); [|assumption].
  clear. induction vs as [|v vs IH]; [constructor|]. cbn [map]. constructor; [|assumption].
  unfold null_entry. destruct (is_null v); (split; [lia|]); [left|right]; split; (lia || reflexivity).
Qed.

(* ---------- tuples ---------- *)
Fixpoint normal_cols (ts : list ty) (rows : list (list value)) : list (list value) :=
  match ts with [] => [] | t :: r => map (normal t) (heads rows) :: normal_cols r (tails rows) end.

Lemma cols_wire ts :
  Forall (fun t => forall vs, validate t = true -> Forall (fun v => sendable t v = true) vs ->
                   fits t vs -> wire_ok t (normal t) vs) ts ->
  forallb validate ts = true ->
  forall rows, Forall (row_ok ts) rows -> fits_cols ts rows ->
  exists bs, ser_cols ser ts rows = Ok bs /\ encodes_columns (2 ^ 30) ts (normal_cols ts rows) bs /\
    Forall (fun c => length c = length rows) (normal_cols ts rows) /\
    forall i, (i < length rows)%nat ->
      zip_with normal ts (nth i rows []) = map (fun c => nth i c VNull) (normal_cols ts rows).
Proof.
  induction 1 as [|t1 ts H1 _ IH]; intros Hval rows Hrows Hfits.
  - exists []. split; [reflexivity|]. split; [constructor|]. split; [constructor|]. reflexivity.
  - cbn [forallb] in Hval. apply andb_true_iff in Hval as [Hv1 Hvs].
    cbn [fits_cols] in Hfits. destruct Hfits as [Hf1 Hfs].
    assert (HS : exists hts : list (value * list value), rows = map (fun p => fst p :: snd p) hts).
    { clear -Hrows. induction Hrows as [|r rows Hr _ (hts & ->)]; [now exists []|].
      destruct Hr as (HL & _). destruct r as [|x r]; [rewrite lenN_cons in HL; unfold lenN at 2 in HL; cbn in HL; lia|].
      now exists ((x, r) :: hts). }
    destruct HS as [hts ->].
    assert (Hh : heads (map (fun p => fst p :: snd p) hts) = map fst hts).
    { clear. unfold heads. induction hts as [|p t IH]; [reflexivity|]. cbn [map flat_map app fst snd]. f_equal. exact IH. }
    assert (Ht : tails (map (fun p => fst p :: snd p) hts) = map snd hts).
    { clear. unfold tails. now rewrite map_map. }
    cbn [ser_cols normal_cols]. fold (ser_cols ser). rewrite Hh, Ht.
    unfold heads in Hh. rewrite Hh in Hf1. unfold tails in Ht. rewrite Ht in Hfs.
    assert (Hrow : Forall (fun v => sendable t1 v = true) (map fst hts) /\ Forall (row_ok ts) (map snd hts)).
    { clear -Hrows. induction hts as [|[x r] hts IH]; [split; constructor|].
      inversion Hrows as [|y l Hr Hl]; subst. destruct (IH Hl) as [A B]. clear IH.
      destruct Hr as (HL & Hrep & Hiv & Hso). cbn [fst snd] in *. cbn [forallb zip_all] in *.
      apply andb_true_iff in Hrep as [? ?]. apply andb_true_iff in Hiv as [? ?]. apply andb_true_iff in Hso as [? ?].
      rewrite !lenN_cons in HL. cbn [map fst snd]. split; constructor; try assumption.
      - now apply sendable_intro.
      - split; [lia|auto]. }
    destruct Hrow as [Hc1 Hcs].
    destruct (H1 (map fst hts) Hv1 Hc1 Hf1) as (b1 & E1 & W1).
    destruct (IH Hvs (map snd hts) Hcs Hfs) as (bs & E & W & L & Z).
    exists (b1 ++ bs). rewrite E1. cbn [rbind]. rewrite E. split; [reflexivity|]. split; [now constructor|].
    rewrite map_length in *. split; [constructor; [now rewrite !map_length|assumption]|].
    intros i Hi. cbn [map].
    replace (nth i (map (fun p : value * list value => fst p :: snd p) hts) [])
      with (nth i (map fst hts) VNull :: nth i (map snd hts) []).
    + cbn [zip_with]. fold (@zip_with ty value value normal). rewrite Z by assumption. f_equal.
      rewrite (nth_indep (map (normal t1) (map fst hts)) VNull (normal t1 VNull)) by (now rewrite !map_length). now rewrite map_nth.
    + clear -Hi. revert i Hi. induction hts as [|p hts IH]; intros i Hi; [cbn in Hi; lia|]. destruct i as [|i]; [reflexivity|].
      cbn [map nth]. apply IH. cbn in Hi. lia.
Qed.

(* ---------- LowCardinality ---------- *)
Lemma Forall2_map_in {A B C} (R : B -> C -> Prop) (f : A -> B) (g : A -> C) l :
  (forall a, In a l -> R (f a) (g a)) -> Forall2 R (map f l) (map g l).
Proof. induction l as [|a l IH]; intros H; [constructor|]. cbn [map]. constructor; [apply H; now left|apply IH; intros; apply H; now right]. Qed.

Lemma lc_width_code n : exists code, width_code code (N.of_nat (lc_index_bytes n)) /\
  N.lor (lc_index_flag n) HAS_ADDITIONAL_KEYS_BIT = code + 512 + (if false then 1024 else 0).
Proof.
  exists (lc_index_flag n). unfold lc_index_flag, lc_index_bytes, width_code.
  destruct (2 ^ 32 - 1 <? n); [split; [now repeat right|reflexivity]|].
  destruct (2 ^ 16 - 1 <? n); [split; [right; right; left; split; reflexivity|reflexivity]|].
  destruct (2 ^ 8 - 1 <? n); [split; [right; left; split; reflexivity|reflexivity]|].
  split; [left; split; reflexivity|reflexivity].
Qed.

Lemma low_card_wire (t : ty) vs : plain (strip_null t) = true -> lenN vs < 2 ^ 30 ->
  Forall (lc_entry (is_nullable t) (strip_null t)) vs -> Forall (string_room (strip_null t)) vs ->
  exists bs, ser_low_card (is_nullable t) (ser (strip_null t)) vs = Ok bs /\
    encodes (2 ^ 30) (TLowCard t) (map (fun v => if is_null v then VNull else normal (strip_null t) v) vs) bs.
Proof.
  intros Hp Hn He Hsz. set (nullable := is_nullable t) in *. set (x := strip_null t) in *.
  destruct vs as [|v0 vs0].
  { exists []. split; [reflexivity|]. apply enc_low; [rewrite lenN_map; unfold lenN; cbn; lia|constructor]. }
  remember (v0 :: vs0) as vs eqn:Hvs. assert (Hne : vs <> []) by (rewrite Hvs; discriminate).
  assert (Hser : ser_low_card nullable (ser x) vs =
    (body <- ser x (lc_keys nullable vs) ;; idx <- mapM (lc_index (lc_keys nullable vs)) vs ;;
     Ok (le_bytes 8 (N.lor (lc_index_flag (lenN (lc_keys nullable vs))) HAS_ADDITIONAL_KEYS_BIT) ++
         le_bytes 8 (lenN (lc_keys nullable vs)) ++ body ++ le_bytes 8 (lenN vs) ++ concat idx)))
    by (now rewrite Hvs).
  clear Hvs v0 vs0. rewrite Hser. clear Hser.
  assert (Hpv : plain_values vs).
  { apply Forall_forall. intros v Hv. rewrite Forall_forall in He. now apply (He v Hv). }
  pose proof (lc_keys_length nullable vs) as HKL.
  assert (Hkin : forall k, In k (lc_keys nullable vs) <-> In k (if nullable then [VNull] else []) \/ In k vs)
    by (intros k; unfold lc_keys; now apply fold_insert_in).
  destruct (leaf_column_wire x (lc_keys nullable vs) Hp) as (body & Eb & Wb).
  { unfold within. lia. }
  { apply Forall_forall. intros k Hk. apply Hkin in Hk. destruct Hk as [Hk|Hk].
    - destruct nullable; [|contradiction]. destruct Hk as [<-|[]]. split; [reflexivity|]. split; [left; reflexivity|].
      destruct vs as [|v vs]; [congruence|]. inversion Hsz as [|? ? R _]. exact (room_null _ _ R).
    - rewrite Forall_forall in He, Hsz. destruct (He k Hk) as (Hr & _ & Hv). split; [assumption|].
      split; [destruct Hv as [[_ Hv]|Hv]; auto|]. now apply Hsz. }
  rewrite Eb. cbn [rbind].
  assert (HI : mapM (lc_index (lc_keys nullable vs)) vs =
    Ok (map (fun v => le_bytes (lc_index_bytes (lenN (lc_keys nullable vs))) (index_of' (lc_keys nullable vs) v)) vs)).
  { apply mapM_ok_map. intros v Hv. unfold lc_index, index_of'.
    destruct (index_of_in v (lc_keys nullable vs)) as (i & -> & _); [|apply Hkin; now right|reflexivity].
    unfold plain_values in Hpv. rewrite Forall_forall in Hpv. now apply Hpv. }
  rewrite HI. cbn [rbind]. eexists. split; [reflexivity|].
  destruct (lc_width_code (lenN (lc_keys nullable vs))) as (code & Hcode & Hflag). rewrite Hflag.
  apply enc_low; [rewrite lenN_map; lia|].
  rewrite <- (app_nil_r (concat _)).
  rewrite <- (app_nil_r (map (fun v => if is_null v then VNull else normal x v) vs)).
  assert (HC : code + 512 + 0 < 2 ^ 64) by (destruct Hcode as [[-> _]|[[-> _]|[[-> _]|[-> _]]]]; reflexivity).
  eapply (dict_more _ t code _ false _ (map (normal_null x) (lc_keys nullable vs)) _ body _ (map (index_of' (lc_keys nullable vs)) vs)).
  - exact Hcode.
  - apply (word_le 8 _ 64 eq_refl). exact HC.
  - rewrite lenN_map. apply (word_le 8 _ 64 eq_refl). lia.
  - exact Wb.
  - rewrite lenN_map. apply (word_le 8 _ 64 eq_refl). lia.
  - intros E. apply map_eq_nil in E. congruence.
  - assert (HH : forall v, In v vs -> dict_entry (is_nullable t) (map (normal_null x) (lc_keys nullable vs))
                    (index_of' (lc_keys nullable vs) v) (if is_null v then VNull else normal x v)).
    { intros v Hv. rewrite Forall_forall in He. destruct (He v Hv) as (_ & Hg & Hval).
      destruct (index_of_in v (lc_keys nullable vs) Hg) as (i & Ej & Hi & Hnth). { apply Hkin. now right. }
      unfold dict_entry, index_of'. fold nullable. rewrite Ej.
      rewrite <- nthN_nth, nthN_map, Hnth. cbn [option_map].
      destruct nullable.
      + destruct (fold_insert_prefix vs [VNull]) as (m & Em & _).
        pose proof (index_of_null_first v m Hg) as Hz. unfold lc_keys in Ej. cbn iota in Ej. rewrite Em in Ej.
        cbn [app] in Ej. rewrite Ej in Hz. rewrite Hz. cbn [andb].
        destruct (is_null v) eqn:Hnull; [reflexivity|]. unfold normal_null. now rewrite Hnull.
      + cbn [andb]. destruct Hval as [[C _]|Hval]; [discriminate|].
        unfold normal_null. now rewrite (not_null_plain x v Hp Hval). }
    apply Forall2_map_in. exact HH.
  - exists (map (fun v => le_bytes (lc_index_bytes (lenN (lc_keys nullable vs))) (index_of' (lc_keys nullable vs) v)) vs). split; [|reflexivity].
    apply Forall2_map_in. intros v Hv. unfold plain_values in Hpv. rewrite Forall_forall in Hpv.
    destruct (index_of_in v (lc_keys nullable vs) (Hpv v Hv)) as (i & Ej & Hi & _). { apply Hkin. now right. }
    unfold index_of'. rewrite Ej. apply (word_le _ _ _ eq_refl). rewrite <- pow256_2. apply lc_index_fits; [exact Hi|]. lia.
  - constructor.
Qed.

Lemma low_card_column_wire t vs : lc_allowed (strip_null t) = true ->
  Forall (fun v => sendable (TLowCard t) v = true) vs -> fits (TLowCard t) vs ->
  wire_ok (TLowCard t) (normal (TLowCard t)) vs.
Proof.
  intros Ht Hs Hf. cbn [fits] in Hf. destruct Hf as (Hw & Hn & Hsz). pose proof (lc_allowed_plain _ Ht) as Hp.
  assert (HI : forall v, In v vs -> representable v = true /\
     ((is_nullable t = true /\ is_null v = true) \/ inner_validate (strip_null t) v = true)).
  { intros v Hv. rewrite Forall_forall in Hs. apply Hs, sendable_spec in Hv as (Hr & Hi & _). cbn [inner_validate] in Hi.
    split; [assumption|]. destruct t; try (right; exact Hi). cbn [strip_null is_nullable]. cbn [inner_validate] in Hi.
    apply orb_true_iff in Hi as [Hi|Hi]; [left; now split|now right]. }
  destruct (low_card_wire t vs Hp Hn) as (bs & E & W).
  - apply Forall_forall. intros v Hv. destruct (HI v Hv) as [Hr Hi]. split; [assumption|]. split; [|exact Hi].
    destruct Hi as [[_ Hi]|Hi]; [destruct v; try discriminate Hi; reflexivity|now apply lc_allowed_no_geo in Hi].
  - eapply Forall_impl; [|exact Hsz]. intros a [_ R]. exact R.
  - exists bs. split; [destruct t; exact E|].
    replace (map (normal (TLowCard t)) vs) with (map (fun v => if is_null v then VNull else normal (strip_null t) v) vs); [exact W|].
    apply map_ext_in. intros v Hv. destruct (HI v Hv) as [_ Hi]. cbn [normal].
    destruct (is_nullable t) eqn:En.
    + destruct t; try discriminate En. reflexivity.
    + destruct Hi as [[C _]|Hi]; [discriminate|]. rewrite (not_null_plain _ _ Hp Hi).
      destruct t; try discriminate En; reflexivity.
Qed.

Theorem wire_encode t : forall vs, validate t = true ->
  Forall (fun v => sendable t v = true) vs -> fits t vs -> wire_ok t (normal t) vs.
Proof.
  induction t as [t Hl|t IH|t IH|ts IH|t IH|k v IHk IHv] using ty_ind_leaf; intros vs Hval Hs Hf.
  - destruct (leaf_plain_or_geo t Hl); [now apply plain_column_wire|now apply geo_column_wire].
  - cbn [validate] in Hval. apply andb_true_iff in Hval as [H1 _]. now apply low_card_column_wire.
  - cbn [validate] in Hval. apply array_column_wire; auto.
  - cbn [validate] in Hval. apply tuple_values in Hs as (rows & -> & Hr). cbn [fits] in Hf. destruct Hf as [Hw Hf].
    rewrite map_map in Hf. cbn [tuple_elems] in Hf. rewrite map_id in Hf.
    destruct (cols_wire ts IH Hval rows Hr Hf) as (bs & E & W & L & Z). rewrite lenN_map in Hw. exists bs. split.
    { rewrite ser_tuple_eq.
      assert (HM : mapM unwrap_tuple (map VTuple rows) = Ok rows).
      { clear. induction rows as [|r t IH]; [reflexivity|]. cbn [map mapM unwrap_tuple rbind]. now rewrite IH. }
      rewrite HM. cbn [rbind].
      assert (HX : existsb (fun r => lenN ts <? lenN r) rows = false).
      { clear -Hr. induction Hr as [|r t (HL & _) _ IH]; [reflexivity|]. cbn [existsb]. rewrite IH. lia. }
      now rewrite HX. }
    replace (map (normal (TTuple ts)) (map VTuple rows)) with (tuples_of (length rows) (normal_cols ts rows)).
    + now apply enc_tup.
    + unfold tuples_of. rewrite map_map. cbn [normal].
      rewrite <- (map_self rows []) at 2. rewrite map_map. apply map_ext_in. intros i Hi. apply in_seq in Hi.
      rewrite Z by lia. reflexivity.
  - cbn [validate] in Hval. apply andb_true_iff in Hval as [H1 H2]. cbn [fits] in Hf. destruct Hf as [Hw Hf].
    assert (Hl : ty_leaf t = true).
    { apply negb_true_iff in H1. destruct t; try discriminate H1; reflexivity. }
    destruct (leaf_plain_or_geo t Hl) as [Hp|Hg].
    + apply (wire_ok_ext _ (fun v => if is_null v then VNull else normal_null t v)).
      { intros v _. cbn [normal]. unfold normal_null. now destruct (is_null v). }
      apply nullable_column_wire. apply leaf_column_wire; [assumption|assumption|].
      apply Forall_forall. intros v Hv. pose proof Hs as Hs'. rewrite Forall_forall in Hs'. pose proof (sendable_spec _ _ (Hs' v Hv)) as Hv'.
      destruct Hv' as (Hr & Hi & _). cbn [inner_validate] in Hi. apply orb_true_iff in Hi. split; [assumption|].
      split; [assumption|]. apply fits_room in Hf; [|exact Hp]. rewrite Forall_forall in Hf. now apply Hf.
    + apply nullable_column_wire. apply IH; [assumption| |assumption].
      apply Forall_forall. intros v Hv. rewrite Forall_forall in Hs. apply Hs, sendable_spec in Hv as (Hr & Hi & Hsh).
      cbn [inner_validate] in Hi. cbn [shape_ok] in Hsh. rewrite Hg in Hsh.
      destruct (is_null v); [discriminate|]. cbn [orb] in Hi. now apply sendable_intro.
  - cbn [validate] in Hval. apply andb_true_iff in Hval as [H1 H2]. apply andb_true_iff in H1 as [H0 H1].
    apply map_column_wire; auto.
Qed.
