(** LowCardinality: the dictionary, the index width and the round trip. *)
From Verif Require Import Base Io IoProofs Types Ser Deser ColumnSpec ColumnProofs ColumnRoundtrip.

(* ---------- equality of values without geo parts ---------- *)
Fixpoint no_geo (v : value) : bool :=
  match v with
  | VPoint _ | VRing _ | VPolygon _ | VMultiPolygon _ => false
  | VArray l | VTuple l => forallb no_geo l
  | VMap ks vs => forallb no_geo ks && forallb no_geo vs
  | _ => true
  end.

Lemma list_eqb_eq {A} (e : A -> A -> bool) (l : list A) :
  Forall (fun a => forall b, e a b = true -> a = b) l -> forall m, list_eqb e l m = true -> l = m.
Proof.
  induction 1 as [|x l Hx _ IH]; intros [|y m] H; try discriminate H; [reflexivity|].
  cbn [list_eqb] in H. apply andb_true_iff in H as [H1 H2]. apply Hx in H1 as <-. now apply IH in H2 as <-.
Qed.
Lemma list_eqb_refl {A} (e : A -> A -> bool) (l : list A) :
  Forall (fun a => e a a = true) l -> list_eqb e l l = true.
Proof. induction 1 as [|x l Hx _ IH]; [reflexivity|]. cbn [list_eqb]. now rewrite Hx, IH. Qed.

Lemma bytes_eqb_eq l m : bytes_eqb l m = true -> l = m.
Proof. apply list_eqb_eq. apply Forall_forall. intros x _ y. apply N.eqb_eq. Qed.
Lemma bytes_eqb_refl l : bytes_eqb l l = true.
Proof. apply list_eqb_refl. apply Forall_forall. intros x _. apply N.eqb_refl. Qed.
Lemma iw_eqb_refl w : iw_eqb w w = true. Proof. now destruct w. Qed.

Ltac split_andb := repeat match goal with H : _ && _ = true |- _ => apply andb_true_iff in H as [? ?] end.
Ltac eqb_subst := repeat match goal with
  | H : (_ =? _) = true |- _ => apply N.eqb_eq in H; subst
  | H : (_ =? _)%Z = true |- _ => apply Z.eqb_eq in H; subst
  | H : bytes_eqb _ _ = true |- _ => apply bytes_eqb_eq in H; subst
  | H : iw_eqb _ _ = true |- _ => apply iw_eqb_eq in H; subst
  end.

Lemma value_eqb_eq a : no_geo a = true -> forall b, value_eqb a b = true -> a = b.
Proof.
  induction a as [v Hv|l IH|l IH|ks vs IHk IHv] using value_nested_ind; intros Hg b H.
  - destruct v; try contradiction Hv; try discriminate Hg; destruct b; try discriminate H;
      cbn [value_eqb] in H; split_andb; eqb_subst; reflexivity.
  - destruct b; try discriminate H. cbn [value_eqb] in H. f_equal. revert H. apply list_eqb_eq.
    cbn [no_geo] in Hg. rewrite forallb_forall in Hg. rewrite Forall_forall in IH |- *. intros x Hx. apply IH; auto.
  - destruct b; try discriminate H. cbn [value_eqb] in H. f_equal. revert H. apply list_eqb_eq.
    cbn [no_geo] in Hg. rewrite forallb_forall in Hg. rewrite Forall_forall in IH |- *. intros x Hx. apply IH; auto.
  - destruct b; try discriminate H. cbn [value_eqb] in H. cbn [no_geo] in Hg.
    apply andb_true_iff in H as [H1 H2]. apply andb_true_iff in Hg as [G1 G2].
    rewrite forallb_forall in G1, G2. rewrite Forall_forall in IHk, IHv. f_equal.
    + revert H1. apply list_eqb_eq. apply Forall_forall. auto.
    + revert H2. apply list_eqb_eq. apply Forall_forall. auto.
Qed.

Lemma value_eqb_refl a : no_geo a = true -> value_eqb a a = true.
Proof.
  induction a as [v Hv|l IH|l IH|ks vs IHk IHv] using value_nested_ind; intros Hg.
  - destruct v; try contradiction Hv; try discriminate Hg; cbn [value_eqb];
      rewrite ?N.eqb_refl, ?Z.eqb_refl, ?bytes_eqb_refl, ?iw_eqb_refl; reflexivity.
  - cbn [value_eqb]. apply list_eqb_refl. cbn [no_geo] in Hg. rewrite forallb_forall in Hg.
    rewrite Forall_forall in IH |- *. auto.
  - cbn [value_eqb]. apply list_eqb_refl. cbn [no_geo] in Hg. rewrite forallb_forall in Hg.
    rewrite Forall_forall in IH |- *. auto.
  - cbn [value_eqb no_geo] in *. apply andb_true_iff in Hg as [G1 G2].
    rewrite forallb_forall in G1, G2. rewrite Forall_forall in IHk, IHv.
    rewrite !list_eqb_refl; [reflexivity| |]; apply Forall_forall; auto.
Qed.

(* ---------- the dictionary ---------- *)
Definition plain_values (vs : list value) : Prop := Forall (fun v => no_geo v = true) vs.

Lemma existsb_value_eqb v keys : no_geo v = true ->
  existsb (value_eqb v) keys = true <-> In v keys.
Proof.
  intros Hg. rewrite existsb_exists. split.
  - intros (k & Hk & E). apply (value_eqb_eq v Hg) in E as <-. exact Hk.
  - intros Hk. exists v. split; [assumption|now apply value_eqb_refl].
Qed.

Lemma index_insert_in keys v : no_geo v = true ->
  forall x, In x (index_insert keys v) <-> In x keys \/ x = v.
Proof.
  intros Hg x. unfold index_insert. destruct (existsb (value_eqb v) keys) eqn:E.
  - apply existsb_value_eqb in E; [|assumption]. split; [auto|]. intros [H| ->]; assumption.
  - rewrite in_app_iff. cbn. intuition.
Qed.

Lemma index_insert_nodup keys v : no_geo v = true -> NoDup keys -> NoDup (index_insert keys v).
Proof.
  intros Hg Hn. unfold index_insert. destruct (existsb (value_eqb v) keys) eqn:E; [assumption|].
  apply NoDup_rev in Hn. rewrite <- (rev_involutive (keys ++ [v])). apply NoDup_rev.
  rewrite rev_app_distr. cbn. constructor; [|assumption].
  rewrite <- in_rev. intros C. apply (existsb_value_eqb v keys Hg) in C. congruence.
Qed.

Lemma fold_insert_in vs keys : plain_values vs ->
  forall x, In x (fold_left index_insert vs keys) <-> In x keys \/ In x vs.
Proof.
  intros H. revert keys; induction H as [|v vs Hv _ IH]; intros keys x; cbn [fold_left].
  - cbn. intuition.
  - rewrite IH, index_insert_in by assumption. cbn. intuition.
Qed.
Lemma fold_insert_nodup vs keys : plain_values vs -> NoDup keys -> NoDup (fold_left index_insert vs keys).
Proof. intros H. revert keys; induction H as [|v vs Hv _ IH]; intros keys Hn; cbn [fold_left]; [assumption|]. apply IH. now apply index_insert_nodup. Qed.

Lemma index_insert_prefix keys v : exists m, index_insert keys v = keys ++ m /\ lenN m <= 1.
Proof.
  unfold index_insert. destruct (existsb _ _).
  - exists []. rewrite app_nil_r. split; [reflexivity|now rewrite lenN_nil].
  - exists [v]. split; [reflexivity|]. unfold lenN. cbn. lia.
Qed.
Lemma fold_insert_prefix vs : forall keys, exists m, fold_left index_insert vs keys = keys ++ m /\ lenN m <= lenN vs.
Proof.
  induction vs as [|v vs IH]; intros keys; cbn [fold_left].
  - exists []. rewrite app_nil_r. split; [reflexivity|lia].
  - destruct (index_insert_prefix keys v) as (m & -> & Hm). destruct (IH (keys ++ m)) as (m' & -> & Hm').
    exists (m ++ m'). rewrite app_assoc, lenN_app, lenN_cons. split; [reflexivity|lia].
Qed.

Lemma lc_keys_length nullable vs : lenN (lc_keys nullable vs) <= lenN vs + 1.
Proof.
  unfold lc_keys. destruct (fold_insert_prefix vs (if nullable then [VNull] else [])) as (m & -> & Hm).
  rewrite lenN_app. destruct nullable; unfold lenN in *; cbn [length] in *; lia.
Qed.

(* ---------- indices ---------- *)
Lemma index_of_in v keys : no_geo v = true -> In v keys ->
  exists i, index_of v keys = Some i /\ i < lenN keys /\ nthN keys i = Some v.
Proof.
  intros Hg. induction keys as [|k t IH]; intros Hin; [contradiction|].
  cbn [index_of nthN]. destruct (value_eqb v k) eqn:E.
  - apply (value_eqb_eq v Hg) in E as <-. exists 0. rewrite lenN_cons. split; [reflexivity|]. split; [lia|reflexivity].
  - destruct Hin as [->|Hin].
    { rewrite value_eqb_refl in E by assumption. discriminate. }
    destruct (IH Hin) as (i & Ei & Hi & Hn). rewrite Ei. exists (N.succ i). rewrite lenN_cons.
    split; [reflexivity|]. split; [lia|]. destruct (N.eqb_spec (N.succ i) 0) as [C|_]; [lia|].
    now rewrite N.pred_succ.
Qed.

Lemma index_of_null_first v m : no_geo v = true ->
  match index_of v (VNull :: m) with Some i => (i =? 0) = is_null v | None => is_null v = false end.
Proof.
  intros Hg. cbn [index_of]. rewrite is_null_eqb. destruct (is_null v) eqn:E; [reflexivity|].
  destruct (index_of v m); cbn; [|reflexivity]. apply N.eqb_neq. lia.
Qed.

(** The flag and the number of bytes agree, and the width holds every index. *)
Lemma lc_width n : exists w, index_width (N.lor (lc_index_flag n) HAS_ADDITIONAL_KEYS_BIT) = Some w
  /\ lc_index_bytes n = ibytes w.
Proof.
  unfold lc_index_flag, lc_index_bytes.
  destruct (2 ^ 32 - 1 <? n); [exists I64; split; reflexivity|].
  destruct (2 ^ 16 - 1 <? n); [exists I32; split; reflexivity|].
  destruct (2 ^ 8 - 1 <? n); [exists I16; split; reflexivity|].
  exists I8; split; reflexivity.
Qed.
Lemma lc_flags n : has_bit (N.lor (lc_index_flag n) HAS_ADDITIONAL_KEYS_BIT) HAS_ADDITIONAL_KEYS_BIT = true
  /\ has_bit (N.lor (lc_index_flag n) HAS_ADDITIONAL_KEYS_BIT) NEED_GLOBAL_DICTIONARY_BIT = false
  /\ N.lor (lc_index_flag n) HAS_ADDITIONAL_KEYS_BIT < 2 ^ 64.
Proof.
  unfold lc_index_flag. destruct (2 ^ 32 - 1 <? n); [repeat split|].
  destruct (2 ^ 16 - 1 <? n); [repeat split|]. destruct (2 ^ 8 - 1 <? n); repeat split.
Qed.

Lemma lc_index_fits n i : i < n -> n <= 2 ^ 64 -> i < 256 ^ N.of_nat (lc_index_bytes n).
Proof.
  intros Hi Hn. rewrite pow256_2. unfold lc_index_bytes.
  destruct (N.ltb_spec (2 ^ 32 - 1) n); [change (8 * N.of_nat 8) with 64; lia|].
  destruct (N.ltb_spec (2 ^ 16 - 1) n); [change (8 * N.of_nat 4) with 32; lia|].
  destruct (N.ltb_spec (2 ^ 8 - 1) n); [change (8 * N.of_nat 2) with 16; lia|].
  change (8 * N.of_nat 1) with 8. lia.
Qed.

Definition index_of' (keys : list value) (v : value) : N := match index_of v keys with Some i => i | None => 0 end.

Lemma lc_indices keys vs : plain_values vs -> (forall v, In v vs -> In v keys) -> lenN keys <= 2 ^ 64 ->
  exists idx, mapM (lc_index keys) vs = Ok idx /\ bytes_ok (concat idx) /\
    forall rest, read_n (N.to_nat (lenN vs)) (read_le (lc_index_bytes (lenN keys))) (concat idx ++ rest)
      = Ok (map (index_of' keys) vs, rest).
Proof.
  intros Hg Hin Hn.
  destruct (column_codec (lc_index keys) (read_le (lc_index_bytes (lenN keys))) (index_of' keys) vs) as (bs & E & B & D).
  - apply Forall_forall. intros v Hv. unfold plain_values in Hg. rewrite Forall_forall in Hg.
    destruct (index_of_in v keys (Hg v Hv) (Hin v Hv)) as (i & Ei & Hi & _).
    exists (le_bytes (lc_index_bytes (lenN keys)) i). unfold lc_index, index_of'. rewrite Ei.
    split; [reflexivity|]. split; [apply le_bytes_ok|]. intros rest. apply read_le_app. now apply lc_index_fits.
  - destruct (mapM (lc_index keys) vs) as [idx| |]; cbn in E; try discriminate E. injection E as <-.
    exists idx. auto.
Qed.

Lemma lc_init_pending : num_pending lc_init = 0. Proof. reflexivity. Qed.

Lemma lc_decode (nullable : bool) (inner : N -> rd (list value)) keys vs flags w body idx :
  vs <> [] -> within (lenN vs) -> lenN keys < 2 ^ 64 -> flags < 2 ^ 64 ->
  index_width flags = Some w -> has_bit flags HAS_ADDITIONAL_KEYS_BIT = true ->
  has_bit flags NEED_GLOBAL_DICTIONARY_BIT = false ->
  forall g h,
  (forall rest, inner (lenN keys) (body ++ rest) = Ok (map g keys, rest)) ->
  (forall rest, read_n (N.to_nat (lenN vs)) (read_le (ibytes w)) (concat idx ++ rest) = Ok (map (index_of' keys) vs, rest)) ->
  (forall v, In v vs -> lc_lookup false true nullable None (Some (map g keys)) (index_of' keys v) = Ok [h v]) ->
  forall rest,
  deser_low_card nullable inner (lenN vs)
    ((le_bytes 8 flags ++ le_bytes 8 (lenN keys) ++ body ++ le_bytes 8 (lenN vs) ++ concat idx) ++ rest)
  = Ok (map h vs, rest).
Proof.
  intros Hne Hw Hk Hfl Hiw Ha Hg g h Hbody Hidx Hlook rest. unfold deser_low_card.
  remember (length _) as fuel eqn:Hfuel. clear Hfuel.
  cbn [lc_loop]. rewrite lenN_nonzero by assumption. rewrite lc_init_pending.
  change (0 =? 0) with true. cbn iota. unfold lc_header, rdbind. rewrite <- !app_assoc.
  rewrite read_le_app by (rewrite pow256_2; exact Hfl). cbn [rbind]. rewrite Hiw, Ha, Hg. cbn [andb].
  cbn [rret rbind]. unfold rret at 1. cbn [rbind].
  rewrite read_le_app by (rewrite pow256_2; exact Hk). cbn [rbind].
  rewrite Hbody. cbn [rbind]. unfold rret at 1. cbn [rbind].
  rewrite read_le_app by (rewrite pow256_2; unfold within in Hw; change (8 * N.of_nat 8) with 64; lia).
  cbn [rbind]. unfold rret. cbn [rbind num_pending indexed needs_global has_additional gdict adict lc_init].
  rewrite N.min_id. rewrite check_rows_ok by assumption. rewrite Hidx. cbn [rbind].
  rewrite (mapM_ok_map _ (fun i => match lc_lookup false true nullable None (Some (map g keys)) i with Ok l => l | _ => [] end)).
  - cbn [rbind]. rewrite N.sub_diag. destruct fuel; cbn [lc_loop]; change (0 =? 0) with true; cbn iota.
    + f_equal. f_equal. cbn [app]. rewrite map_map. clear -Hlook.
      induction vs as [|v vs IH]; [reflexivity|]. cbn [map concat]. rewrite Hlook by (now left). cbn [app].
      f_equal. apply IH. intros; apply Hlook; now right.
    + f_equal. f_equal. cbn [app]. rewrite map_map. clear -Hlook.
      induction vs as [|v vs IH]; [reflexivity|]. cbn [map concat]. rewrite Hlook by (now left). cbn [app].
      f_equal. apply IH. intros; apply Hlook; now right.
  - intros i Hi. apply in_map_iff in Hi as (v & <- & Hv). now rewrite Hlook.
Qed.

Lemma nthN_map {A B} (f : A -> B) l i : nthN (map f l) i = option_map f (nthN l i).
Proof. revert i; induction l as [|x t IH]; intros i; [reflexivity|]. cbn [map nthN]. destruct (i =? 0); [reflexivity|apply IH]. Qed.

(** Entries of a LowCardinality column over the stripped type [x]. *)
Definition lc_entry (nullable : bool) (x : ty) (v : value) : Prop :=
  representable v = true /\ no_geo v = true /\
  ((nullable = true /\ is_null v = true) \/ inner_validate x v = true).

Lemma low_card_ok (nullable : bool) x vs : plain x = true -> lenN vs < 2 ^ 30 ->
  Forall (lc_entry nullable x) vs -> Forall (string_room x) vs ->
  exists bs, ser_low_card nullable (ser x) vs = Ok bs /\ bytes_ok bs /\
    forall rest, deser_low_card nullable (deser x) (lenN vs) (bs ++ rest)
      = Ok (map (fun v => if is_null v then VNull else normal x v) vs, rest).
Proof.
  intros Hp Hn He Hsz. destruct vs as [|v0 vs0].
  { exists []. repeat split; constructor. }
  remember (v0 :: vs0) as vs eqn:Hvs. assert (Hne : vs <> []) by (rewrite Hvs; discriminate).
  assert (Hser : ser_low_card nullable (ser x) vs =
    (body <- ser x (lc_keys nullable vs) ;; idx <- mapM (lc_index (lc_keys nullable vs)) vs ;;
     Ok (le_bytes 8 (N.lor (lc_index_flag (lenN (lc_keys nullable vs))) HAS_ADDITIONAL_KEYS_BIT) ++
         le_bytes 8 (lenN (lc_keys nullable vs)) ++ body ++ le_bytes 8 (lenN vs) ++ concat idx)))
    by (now rewrite Hvs).
  clear Hvs v0 vs0. rewrite Hser. clear Hser.
  assert (Hpv : plain_values vs).
  { apply Forall_forall. intros v Hv. rewrite Forall_forall in He. now apply (He v Hv). }
  pose proof (lc_keys_length nullable vs) as HKL.
  assert (Hkin : forall k, In k (lc_keys nullable vs) <-> In k (if nullable then [VNull] else []) \/ In k vs)
    by (intros k; unfold lc_keys; now apply fold_insert_in).
  destruct (leaf_column x (lc_keys nullable vs) Hp) as (body & Eb & Bb & Db).
  { unfold within. lia. }
  { apply Forall_forall. intros k Hk. apply Hkin in Hk. destruct Hk as [Hk|Hk].
    - destruct nullable; [|contradiction]. destruct Hk as [<-|[]]. split; [reflexivity|]. split; [left; reflexivity|].
      destruct vs as [|v vs]; [congruence|]. inversion Hsz as [|? ? R _]. exact (room_null _ _ R).
    - rewrite Forall_forall in He, Hsz. destruct (He k Hk) as (Hr & _ & Hv). split; [assumption|].
      split; [destruct Hv as [[_ Hv]|Hv]; auto|]. now apply Hsz. }
  destruct (lc_indices (lc_keys nullable vs) vs Hpv) as (idx & Ei & Bi & Di).
  { intros v Hv. apply Hkin. now right. }
  { lia. }
  rewrite Eb. cbn [rbind]. rewrite Ei. cbn [rbind].
  destruct (lc_width (lenN (lc_keys nullable vs))) as (w & Hw1 & Hw2).
  destruct (lc_flags (lenN (lc_keys nullable vs))) as (Hf1 & Hf2 & Hf3).
  eexists. split; [reflexivity|]. split.
  { repeat (apply Forall_app; split); try assumption; apply le_bytes_ok. }
  rewrite Hw2 in Di.
  refine (lc_decode nullable (deser x) (lc_keys nullable vs) vs _ w body idx Hne _ _ Hf3 Hw1 Hf1 Hf2
            (normal_null x) _ Db Di _).
  - unfold within. lia.
  - lia.
  - intros v Hv. unfold lc_lookup, get_or_illegal, index_of'.
    rewrite Forall_forall in He. destruct (He v Hv) as (_ & Hg & Hval).
    destruct (index_of_in v (lc_keys nullable vs) Hg) as (i & Ej & Hi & Hnth). { apply Hkin. now right. }
    rewrite Ej. rewrite nthN_map, Hnth. cbn [option_map rbind].
    destruct nullable.
    + destruct (fold_insert_prefix vs [VNull]) as (m & Em & _).
      pose proof (index_of_null_first v m Hg) as Hz. unfold lc_keys in Ej. cbn iota in Ej. rewrite Em in Ej.
      cbn [app] in Ej. rewrite Ej in Hz. rewrite Hz. cbn [andb].
      destruct (is_null v) eqn:Hnull; [reflexivity|]. unfold normal_null. now rewrite Hnull.
    + cbn [andb]. destruct Hval as [[C _]|Hval]; [discriminate|].
      unfold normal_null. now rewrite (not_null_plain x v Hp Hval).
Qed.

Lemma lc_allowed_plain t : lc_allowed t = true -> plain t = true.
Proof. destruct t; try discriminate; reflexivity. Qed.

Lemma byte_values_no_geo l : forallb is_byte_value l = true -> forallb no_geo l = true.
Proof.
  induction l as [|x t IH]; [reflexivity|]. cbn [forallb]. intros H. apply andb_true_iff in H as [H1 H2].
  rewrite (IH H2), andb_true_r. destruct x; try discriminate H1; reflexivity.
Qed.
Lemma lc_allowed_no_geo t v : lc_allowed t = true -> inner_validate t v = true -> no_geo v = true.
Proof.
  intros Ht Hv. destruct v; try reflexivity;
    try (destruct t as [w| | | | | | | | | | | | | | | | | | | | | | | | | | | | |]; try discriminate Ht; try discriminate Hv; destruct w; discriminate Hv).
  - (* VArray *) cbn [no_geo]. apply byte_values_no_geo.
    destruct t as [w| | | | | | | | | | | | | | | | | | | | | | | | | | | | |]; try discriminate Ht; try discriminate Hv; try (destruct w; discriminate Hv); exact Hv.
Qed.

Lemma low_card_column t vs : lc_allowed (strip_null t) = true ->
  Forall (fun v => sendable (TLowCard t) v = true) vs -> fits (TLowCard t) vs ->
  col_ok (TLowCard t) (normal (TLowCard t)) vs.
Proof.
  intros Ht Hs Hf. cbn [fits] in Hf. destruct Hf as (Hw & Hn & Hsz0).
  assert (Hsz : Forall (string_room (strip_null t)) vs) by (eapply Forall_impl; [|exact Hsz0]; intros a [_ R]; exact R).
  destruct (is_nullable t) eqn:Hnul.
  - destruct t; try discriminate Hnul. cbn [strip_null] in Ht.
    destruct (low_card_ok true t vs (lc_allowed_plain _ Ht) Hn) as (bs & E & B & D); [|assumption|].
    + apply Forall_forall. intros v Hv. rewrite Forall_forall in Hs.
      apply Hs, sendable_spec in Hv as (Hr & Hi & _). cbn [inner_validate] in Hi.
      apply orb_true_iff in Hi. split; [assumption|]. split.
      * destruct Hi as [Hi|Hi]; [destruct v; try discriminate Hi; reflexivity|now apply lc_allowed_no_geo in Hi].
      * destruct Hi; auto.
    + exists bs. split; [exact E|]. split; [assumption|]. intros rest. cbn [deser].
      rewrite check_rows_ok by assumption. exact (D rest).
  - assert (HS : strip_null t = t) by (destruct t; try discriminate Hnul; reflexivity). rewrite HS in Ht, Hsz.
    pose proof (lc_allowed_plain _ Ht) as Hp.
    destruct (low_card_ok false t vs Hp Hn) as (bs & E & B & D); [|assumption|].
    + apply Forall_forall. intros v Hv. rewrite Forall_forall in Hs.
      apply Hs, sendable_spec in Hv as (Hr & Hi & _). cbn [inner_validate] in Hi.
      split; [assumption|]. split; [now apply lc_allowed_no_geo in Hi|now right].
    + exists bs. split; [destruct t; try discriminate Ht; exact E|]. split; [assumption|]. intros rest.
      assert (HD : deser (TLowCard t) (lenN vs) = check_rows (lenN vs) (deser_low_card false (deser t) (lenN vs)))
        by (destruct t; try discriminate Ht; reflexivity).
      rewrite HD, check_rows_ok by assumption. rewrite D. f_equal. f_equal. apply map_ext_in. intros v Hv.
      rewrite Forall_forall in Hs. apply Hs, sendable_spec in Hv as (_ & Hi & _). cbn [inner_validate] in Hi.
      now rewrite (not_null_plain t v Hp Hi).
Qed.

(* ---------- the main theorem ---------- *)
Lemma column_roundtrip t : forall vs, validate t = true ->
  Forall (fun v => sendable t v = true) vs -> fits t vs -> col_ok t (normal t) vs.
Proof.
  induction t as [t Hl|t IH|t IH|ts IH|t IH|k v IHk IHv] using ty_ind_leaf; intros vs Hval Hs Hf.
  - destruct (leaf_plain_or_geo t Hl); [now apply plain_column|now apply geo_column].
  - cbn [validate] in Hval. apply andb_true_iff in Hval as [H1 _]. now apply low_card_column.
  - cbn [validate] in Hval. apply array_column; auto.
  - cbn [validate] in Hval. apply tuple_values in Hs as (rows & -> & Hr). cbn [fits] in Hf. destruct Hf as [Hw Hf].
    rewrite map_map in Hf. cbn [tuple_elems] in Hf. rewrite map_id in Hf.
    destruct (cols_ok ts IH Hval rows Hr Hf) as (bs & E & B & D). rewrite lenN_map in Hw. exists bs. split.
    { rewrite ser_tuple_eq.
      assert (HM : mapM unwrap_tuple (map VTuple rows) = Ok rows).
      { clear. induction rows as [|r t IH]; [reflexivity|]. cbn [map mapM unwrap_tuple rbind]. now rewrite IH. }
      rewrite HM. cbn [rbind].
      assert (HX : existsb (fun r => lenN ts <? lenN r) rows = false).
      { clear -Hr. induction Hr as [|r t (HL & _) _ IH]; [reflexivity|]. cbn [existsb]. rewrite IH. lia. }
      now rewrite HX. }
    split; [assumption|]. intros rest. rewrite deser_tuple_eq, lenN_map, check_rows_ok by assumption.
    unfold rdbind. replace (N.to_nat (lenN rows)) with (length rows) by (unfold lenN; lia).
    rewrite D by (now rewrite repeat_length). cbn [rbind]. unfold rret.
    rewrite zip_with_repeat_nil, !map_map. reflexivity.
  - cbn [validate] in Hval. apply andb_true_iff in Hval as [H1 H2]. cbn [fits] in Hf. destruct Hf as [Hw Hf].
    assert (Hl : ty_leaf t = true).
    { apply negb_true_iff in H1. destruct t; try discriminate H1; reflexivity. }
    destruct (leaf_plain_or_geo t Hl) as [Hp|Hg].
    + apply (col_ok_ext _ (fun v => if is_null v then VNull else normal_null t v)).
      { intros v _. cbn [normal]. unfold normal_null. now destruct (is_null v). }
      apply nullable_column; [assumption|]. apply leaf_column; [assumption|assumption|].
      apply Forall_forall. intros v Hv. pose proof Hs as Hs'. rewrite Forall_forall in Hs'. pose proof (sendable_spec _ _ (Hs' v Hv)) as Hv'.
      destruct Hv' as (Hr & Hi & _). cbn [inner_validate] in Hi. apply orb_true_iff in Hi. split; [assumption|].
      split; [assumption|]. apply fits_room in Hf; [|exact Hp]. rewrite Forall_forall in Hf. now apply Hf.
    + apply nullable_column; [assumption|]. apply IH; [assumption| |assumption].
      apply Forall_forall. intros v Hv. rewrite Forall_forall in Hs. apply Hs, sendable_spec in Hv as (Hr & Hi & Hsh).
      cbn [inner_validate] in Hi. cbn [shape_ok] in Hsh. rewrite Hg in Hsh.
      destruct (is_null v); [discriminate|]. cbn [orb] in Hi. now apply sendable_intro.
  - cbn [validate] in Hval. apply andb_true_iff in Hval as [H1 H2]. apply andb_true_iff in H1 as [H0 H1].
    apply map_column; auto.
Qed.
