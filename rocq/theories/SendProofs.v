(** Exactly which validated values can be written, and which of them come back. *)
From Coq Require Import Lia.
From Verif Require Import Base Io IoProofs Types Ser Deser ColumnSpec SendSpec ColumnProofs ColumnRoundtrip LowCardProofs DecodeProofs DecodeProofs2 DecodeTyped.

Definition accepted (t : ty) (v : value) : Prop := representable v = true /\ inner_validate t v = true.

(** What [ser] does: writes bytes or panics. *)
Definition writes (r : res (list N)) (b : bool) : Prop :=
  if b then exists bs, r = Ok bs /\ bytes_ok bs else r = Panic.

Lemma leaf_writable t v : ty_leaf t = true -> writable t v = true.
Proof. destruct t; try discriminate; destruct v; reflexivity. Qed.
Lemma leaf_shape t v : ty_leaf t = true -> shape_ok t v = true.
Proof. destruct t; try discriminate; destruct v; reflexivity. Qed.
Lemma forallb_true {A} (f : A -> bool) l : (forall a, f a = true) -> forallb f l = true.
Proof. intros H. apply forallb_forall. auto. Qed.
Lemma forallb_app_ {A} (f : A -> bool) l m : forallb f (l ++ m) = forallb f l && forallb f m.
Proof. apply forallb_app. Qed.

Lemma shaped_writes t vs : validate t = true -> Forall (accepted t) vs -> fits t vs -> forallb (shape_ok t) vs = true -> exists bs, ser t vs = Ok bs /\ bytes_ok bs.
Proof.
  intros V A F S. destruct (column_roundtrip t vs V) as (bs & E & B & _); [|exact F|eauto].
  apply Forall_forall. intros v Hv. pose proof (proj1 (Forall_forall _ _) A v Hv) as [R I]. apply sendable_intro; auto.
  now apply (proj1 (forallb_forall _ _) S).
Qed.

Lemma null_panics t vs : is_geo t = true -> In VNull vs ->
  (forall v, In v vs -> is_null v = true \/ inner_validate t v = true) -> ser t vs = Panic.
Proof.
  intros G I H.
  assert (K : forall (X : Type) (u : value -> res X), u VNull = Panic -> (forall v, inner_validate t v = true -> exists x, u v = Ok x) -> mapM u vs = Panic).
  { intros X u U W. revert I H. induction vs as [|v l IH]; [intros []|]. intros I H. cbn [mapM].
    destruct (H v (or_introl eq_refl)) as [N|N].
    - destruct v; try discriminate N. now rewrite U.
    - destruct (W v N) as (x & ->). cbn [rbind]. destruct I as [->|I]; [destruct t; discriminate|].
      rewrite IH; [reflexivity|exact I|]. intros w Hw. apply H. now right. }
  destruct t; try discriminate G; cbn [ser]; unfold ser_point, ser_ring, ser_polygon, ser_multipolygon, ser_array_generic;
    (rewrite K; [reflexivity|reflexivity|]); intros v Hv; destruct v; try discriminate Hv; cbn; eauto.
Qed.

Lemma heads_forallb ts (f : ty -> value -> bool) t rows :
  forallb (zip_all f (t :: ts)) rows = forallb (f t) (heads rows) && forallb (zip_all f ts) (tails rows).
Proof.
  unfold heads, tails. induction rows as [|r rows IH]; [reflexivity|]. destruct r as [|x r]; cbn [forallb flat_map map app tl].
  - rewrite IH. cbn [zip_all]. assert (Z : zip_all f ts [] = true) by (destruct ts; reflexivity). now rewrite Z.
  - rewrite IH. cbn [zip_all]. fold (zip_all f). destruct (f t x), (zip_all f ts r), (forallb (f t) (flat_map _ rows)); reflexivity.
Qed.

Lemma cols_writes ts :
  Forall (fun t => forall vs, validate t = true -> Forall (accepted t) vs -> fits t vs -> writes (ser t vs) (forallb (writable t) vs)) ts ->
  forallb validate ts = true -> forall rows, Forall (fun r => forallb representable r = true /\ zip_all inner_validate ts r = true) rows -> fits_cols ts rows ->
  writes (ColumnProofs.ser_cols ser ts rows) (forallb (zip_all writable ts) rows).
Proof.
  induction 1 as [|t ts H1 _ IH]; intros V rows A F.
  - cbn [ColumnProofs.ser_cols]. assert (Z : forallb (zip_all writable []) rows = true) by (apply forallb_true; reflexivity). rewrite Z.
    exists []. split; [reflexivity|constructor].
  - cbn [forallb] in V. apply andb_prop in V as (V1 & V2). cbn [fits_cols] in F. destruct F as (F1 & F2).
    assert (A1 : Forall (accepted t) (heads rows) /\ Forall (fun r => forallb representable r = true /\ zip_all inner_validate ts r = true) (tails rows)).
    { clear -A. unfold heads, tails. induction A as [|r rows (R & I) _ (X & Y)]; [split; constructor|]. destruct r as [|x r]; cbn [flat_map map app tl].
      - split; [exact X|]. constructor; [|exact Y]. split; [reflexivity|destruct ts; reflexivity].
      - cbn [forallb zip_all] in R, I. apply andb_prop in R as (R1 & R2), I as (I1 & I2). split; constructor; try assumption; split; assumption. }
    destruct A1 as (A1 & A2). rewrite heads_forallb. cbn [ColumnProofs.ser_cols]. fold (ColumnProofs.ser_cols ser).
    pose proof (H1 _ V1 A1 F1) as W1. pose proof (IH V2 _ A2 F2) as W2. unfold writes in W1, W2 |- *.
    destruct (forallb (writable t) (heads rows)); [|now rewrite W1].
    destruct W1 as (b1 & -> & B1). cbn [rbind andb]. destruct (forallb (zip_all writable ts) (tails rows)).
    + destruct W2 as (b2 & -> & B2). cbn [rbind]. exists (b1 ++ b2). split; [reflexivity|now apply Forall_app].
    + rewrite W2. reflexivity.
Qed.

Lemma ser_writes : forall t vs, validate t = true -> Forall (accepted t) vs -> fits t vs -> writes (ser t vs) (forallb (writable t) vs).
Proof.
  induction t as [t Hl|t IH|t IH|ts IH|t IH|k w IHk IHw] using ty_ind_leaf; intros vs V A F.
  - rewrite (forallb_true (writable t)) by (intros; now apply leaf_writable).
    apply shaped_writes; auto. apply forallb_true. intros; now apply leaf_shape.
  - assert (L : forall v, inner_validate (TLowCard t) v = true -> writable (TLowCard t) v = true /\ shape_ok (TLowCard t) v = true).
    { cbn [validate] in V. apply andb_prop in V as (V1 & _). intros v Hv.
      destruct t; try discriminate V1; try (destruct v; split; reflexivity).
      cbn [strip_null] in V1. destruct t; try discriminate V1; destruct v; split; reflexivity. }
    assert (L1 : forallb (writable (TLowCard t)) vs = true).
    { apply forallb_forall. intros v Hv. apply L. now apply (proj1 (Forall_forall _ _) A). }
    rewrite L1. apply shaped_writes; auto. apply forallb_forall. intros v Hv. apply L. now apply (proj1 (Forall_forall _ _) A).
  - cbn [validate] in V.
    assert (X : exists ls, vs = map VArray ls /\ Forall (accepted t) (concat ls)).
    { clear -A. induction A as [|v vs (R & I) _ (ls & -> & H)]; [exists []; split; constructor|]. destruct v; try discriminate I.
      exists (l :: ls). split; [reflexivity|]. cbn [concat]. apply Forall_app. split; [|exact H]. cbn [representable inner_validate] in *.
      apply Forall_forall. intros x Hx. split; [now apply (proj1 (forallb_forall _ _) R)|now apply (proj1 (forallb_forall _ _) I)]. }
    destruct X as (ls & -> & A'). cbn [fits] in F. destruct F as (_ & F). rewrite flat_map_concat_map, map_map in F. cbn [elems] in F. rewrite map_id in F.
    specialize (IH _ V A' F). cbn [ser]. unfold ser_array_generic.
    assert (M : mapM unwrap_array (map VArray ls) = Ok ls).
    { clear. induction ls as [|x t' IH]; [reflexivity|]. cbn [map mapM unwrap_array rbind]. now rewrite IH. }
    rewrite M. cbn [rbind].
    assert (Z : forallb (writable (TArray t)) (map VArray ls) = forallb (writable t) (concat ls)).
    { clear. induction ls as [|x l IH]; [reflexivity|]. cbn [map forallb concat]. rewrite IH, forallb_app. reflexivity. }
    rewrite Z. unfold writes in *. destruct (forallb (writable t) (concat ls)); [|now rewrite IH].
    destruct IH as (bs & -> & B). cbn [rbind]. eexists. split; [reflexivity|]. apply Forall_app. split; [apply u64s_ok|exact B].
  - cbn [validate] in V.
    assert (X : exists rows, vs = map VTuple rows /\ Forall (fun r => forallb representable r = true /\ zip_all inner_validate ts r = true) rows).
    { clear -A. induction A as [|v vs (R & I) _ (ls & -> & H)]; [exists []; split; constructor|]. destruct v; try discriminate I.
      exists (l :: ls). split; [reflexivity|]. constructor; [|exact H]. split; assumption. }
    destruct X as (rows & -> & A'). cbn [fits] in F. destruct F as (_ & F). rewrite map_map in F. cbn [tuple_elems] in F. rewrite map_id in F.
    pose proof (cols_writes ts IH V rows A' F) as W. rewrite ser_tuple_eq.
    assert (M : mapM unwrap_tuple (map VTuple rows) = Ok rows).
    { clear. induction rows as [|x t' IH]; [reflexivity|]. cbn [map mapM unwrap_tuple rbind]. now rewrite IH. }
    rewrite M. cbn [rbind].
    assert (Z : forallb (writable (TTuple ts)) (map VTuple rows) = negb (existsb (fun r => lenN ts <? lenN r) rows) && forallb (zip_all writable ts) rows).
    { clear. induction rows as [|x l IH]; [reflexivity|]. cbn [map forallb existsb]. rewrite IH. cbn [writable].
      rewrite N.ltb_antisym, negb_orb, negb_involutive. destruct (lenN x <=? lenN ts), (existsb _ l), (zip_all writable ts x); reflexivity. }
    rewrite Z. destruct (existsb _ rows); [reflexivity|exact W].
  - cbn [validate] in V. apply andb_prop in V as (V1 & V2).
    assert (Lf : ty_leaf t = true) by (destruct t; try reflexivity; discriminate V1).
    destruct (forallb (writable (TNullable t)) vs) eqn:Z.
    + assert (S : forallb (shape_ok (TNullable t)) vs = true).
      { apply forallb_forall. intros v Hv. pose proof (proj1 (forallb_forall _ _) Z v Hv) as W.
        cbn [writable] in W. cbn [shape_ok]. destruct (is_null v); [exact W|now apply leaf_shape]. }
      assert (Vt : validate (TNullable t) = true) by (cbn [validate]; now rewrite V1, V2).
      exact (shaped_writes (TNullable t) vs Vt A F S).
    + assert (X : exists v, In v vs /\ writable (TNullable t) v = false).
      { clear -Z. induction vs as [|v vs IH]; [discriminate|]. cbn [forallb] in Z. destruct (writable (TNullable t) v) eqn:E; [|exists v; split; [now left|exact E]].
        destruct (IH Z) as (x & I & Hx). exists x. split; [now right|exact Hx]. }
      destruct X as (v & I & W). cbn [writable] in W. destruct (is_null v) eqn:Nv; [|now rewrite leaf_writable in W].
      apply negb_false_iff in W. destruct v; try discriminate Nv. cbn [ser writes]. rewrite (null_panics t vs W I); [reflexivity|].
      intros v Hv. destruct (proj1 (Forall_forall _ _) A v Hv) as (_ & P). assert (E : inner_validate (TNullable t) v = is_null v || inner_validate t v) by (destruct v; reflexivity).
      rewrite E in P. apply orb_prop in P. exact P.
  - cbn [validate] in V. apply andb_prop in V as (V0 & V2). apply andb_prop in V0 as (V0 & V1).
    assert (X : exists kvs, vs = map (fun kv => VMap (fst kv) (snd kv)) kvs /\ Forall (accepted k) (concat (map fst kvs)) /\ Forall (accepted w) (concat (map snd kvs))).
    { clear -A. induction A as [|v vs (R & I) _ (ls & -> & H & H')]; [exists []; repeat split; constructor|].
      destruct v as [| | | | | | | | | | | | | | | | | | | | |ks vs0| | | | | |]; try discriminate I.
      exists ((ks, vs0) :: ls). split; [reflexivity|]. cbn [representable inner_validate] in *. apply andb_prop in R as (R1 & R2), I as (I1 & I2).
      cbn [map concat fst snd]. split; apply Forall_app; (split; [|assumption]); apply Forall_forall; intros x Hx; split.
      - exact (proj1 (forallb_forall _ _) R1 x Hx).
      - exact (proj1 (forallb_forall _ _) I1 x Hx).
      - exact (proj1 (forallb_forall _ _) R2 x Hx).
      - exact (proj1 (forallb_forall _ _) I2 x Hx). }
    destruct X as (kvs & -> & Ak & Aw). cbn [fits] in F. destruct F as (_ & Fk & Fw).
    rewrite flat_map_concat_map, map_map in Fk, Fw. cbn [map_keys map_vals] in Fk, Fw.
    change (fits k (concat (map fst kvs))) in Fk. change (fits w (concat (map snd kvs))) in Fw.
    specialize (IHk _ V1 Ak Fk). specialize (IHw _ V2 Aw Fw). clear Ak Aw Fk Fw A. cbn [ser].
    assert (Z : forallb (writable (TMap k w)) (map (fun kv => VMap (fst kv) (snd kv)) kvs)
      = forallb (fun kv => lenN (fst kv) =? lenN (snd kv)) kvs && (forallb (writable k) (concat (map fst kvs)) && forallb (writable w) (concat (map snd kvs)))).
    { clear. induction kvs as [|[a b] l IH]; [reflexivity|]. cbn [map forallb concat fst snd]. rewrite IH, !forallb_app.
      change (writable (TMap k w) (VMap a b)) with ((lenN a =? lenN b) && forallb (writable k) a && forallb (writable w) b).
      destruct (lenN a =? lenN b), (forallb (writable k) a), (forallb (writable w) b), (forallb _ l), (forallb (writable k) (concat (map fst l))); reflexivity. }
    rewrite Z.
    assert (M : mapM unwrap_map (map (fun kv => VMap (fst kv) (snd kv)) kvs) = if forallb (fun kv => lenN (fst kv) =? lenN (snd kv)) kvs then Ok kvs else Panic).
    { clear. induction kvs as [|[a b] t IH]; [reflexivity|]. cbn [map mapM unwrap_map fst snd forallb]. destruct (lenN a =? lenN b); [|reflexivity].
      cbn [rbind andb]. rewrite IH. destruct (forallb _ t); reflexivity. }
    rewrite M. destruct (forallb (fun kv => _ =? _) kvs); [|reflexivity]. cbn [rbind andb]. unfold writes in IHk, IHw |- *.
    destruct (forallb (writable k) _); [|now rewrite IHk]. destruct IHk as (bk & -> & Bk). cbn [rbind andb].
    destruct (forallb (writable w) _); [|now rewrite IHw]. destruct IHw as (bw & -> & Bw). cbn [rbind].
    eexists. split; [reflexivity|]. repeat (apply Forall_app; split); try assumption. apply u64s_ok.
Qed.

(* ---------------- what a reader returns has the type's arities ---------------- *)
Definition ar (t : ty) (v : value) : Prop := arity t v = true.
Definition tup (ts : list ty) (l : list value) : Prop := length l = length ts /\ zip_all arity ts l = true.

Lemma push_tup ts t : forall acc col out, length col = length acc -> Forall (tup ts) acc -> Forall (ar t) col -> push_column acc col = Ok out -> Forall (tup (ts ++ [t])) out.
Proof.
  induction acc as [|l acc IH]; intros [|v col] out L Fa Fc E; try discriminate L; cbn [push_column] in E.
  - injection E as <-. constructor.
  - inv_bind E. injection E as <-. pose proof (Forall_inv Fa) as (H1 & H2). pose proof (Forall_inv Fc) as Hv. apply Forall_inv_tail in Fa, Fc.
    constructor; [|eapply IH; eauto]. split; [rewrite !app_length; cbn [length]; lia|]. now apply zip_all_snoc.
Qed.

Lemma cols_tup rows : forall ts done acc, forallb not_dict ts = true -> Forall (fun t => forall n, gives (Forall (ar t)) (deser t n)) ts ->
  length acc = N.to_nat rows -> Forall (tup done) acc -> gives (Forall (tup (done ++ ts))) (deser_cols rows ts acc).
Proof.
  induction ts as [|t ts IH]; intros done acc D G L Fa; cbn [deser_cols].
  - apply gv_ret. now rewrite app_nil_r.
  - fold (deser_cols rows). cbn [forallb] in D. apply andb_prop in D as (D1 & D2). pose proof (Forall_inv G) as G1. apply Forall_inv_tail in G.
    intros inp v rest B E. unfold rdbind in E. inv_bind E. destruct a as [col i1]. cbn beta in E. inv_bind E.
    destruct (G1 rows _ _ _ B E0) as (Fc & B1). apply (deser_rows t D1) in E0.
    pose proof (push_tup done t acc col a ltac:(lia) Fa Fc E1) as F'. apply push_column_length in E1.
    specialize (IH (done ++ [t]) a D2 G ltac:(lia) F' i1 v rest B1 E). rewrite <- app_assoc in IH. exact IH.
Qed.

Lemma split_arity k w : forall offs p ks vs out, Forall (ar k) ks -> Forall (ar w) vs -> split_map p offs ks vs = Ok out -> Forall (ar (TMap k w)) out.
Proof.
  induction offs as [|o offs IH]; intros p ks vs out Fk Fv E; cbn [split_map] in E; [injection E as <-; constructor|].
  destruct (_ || _); [discriminate|]. inv_bind E. injection E as <-.
  constructor; [|eapply IH; [| |exact E0]; now apply Forall_dropN].
  pose proof (Forall_takeN _ (o - p) _ Fk) as A. pose proof (Forall_takeN _ (o - p) _ Fv) as B.
  unfold ar. cbn [arity]. rewrite andb_true_iff. split; apply forallb_forall; intros x Hx; [exact (proj1 (Forall_forall _ _) A x Hx)|exact (proj1 (Forall_forall _ _) B x Hx)].
Qed.

Lemma not_dict_plain t : validate t = true -> (match t with TLowCard _ => false | _ => true end) = true -> not_dict t = true.
Proof. destruct t; try reflexivity; try discriminate. cbn. intros V _. apply andb_prop in V as (V & _). destruct t; try reflexivity; discriminate. Qed.

Lemma deser_arity t : validate t = true -> plain_tuples t = true -> forall rows, gives (Forall (ar t)) (deser t rows).
Proof.
  induction t as [t Hl|t IH|t IH|ts IH|t IH|k w IHk IHw] using ty_ind_leaf; intros V P rows.
  - eapply gv_weaken; [|apply gv_local, deser_local]. intros l _. apply Forall_forall. intros v _. destruct t; try discriminate Hl; reflexivity.
  - eapply gv_weaken; [|apply gv_local, deser_local]. intros l _. apply Forall_forall. intros v _. reflexivity.
  - cbn [deser]. apply gv_check. cbn [validate plain_tuples] in V, P. eapply (gv_array (deser t) (ar t) (ar t)); [now apply IH|intros v a Q E; now injection E as <-|].
    intros l F. unfold ar. cbn [arity]. apply forallb_forall. intros x Hx. exact (proj1 (Forall_forall _ _) F x Hx).
  - cbn [validate plain_tuples] in V, P. rewrite deser_tuple_eq. apply gv_check.
    assert (D : forallb not_dict ts = true /\ Forall (fun t => forall n, gives (Forall (ar t)) (deser t n)) ts).
    { clear -V P IH. revert V P. induction IH as [|t ts H _ IHs]; intros V P; [split; [reflexivity|constructor]|].
      cbn [forallb] in V, P |- *. apply andb_prop in V as (V & Vs), P as (P & Ps). apply andb_prop in P as (P1 & P2).
      destruct (IHs Vs Ps) as (D1 & D2). split; [rewrite D1; now rewrite not_dict_plain|]. constructor; [now apply H|exact D2]. }
    destruct D as (D1 & D2). eapply gv_bind; [apply (cols_tup rows ts [] _ D1 D2)|].
    + apply repeat_length.
    + apply Forall_forall. intros l I. apply repeat_spec in I as ->. split; reflexivity.
    + intros tu F. apply gv_ret. apply Forall_map. eapply Forall_impl; [|exact F]. cbn [app]. intros l (L & Z). unfold ar. cbn [arity].
      rewrite Z, andb_true_r. apply N.eqb_eq. unfold lenN. lia.
  - cbn [validate plain_tuples] in V, P. apply andb_prop in V as (_ & V). cbn [deser]. apply gv_check. eapply gv_bind; [apply gv_exact|]. intros mask _.
    eapply gv_bind; [now apply IH|]. intros out F. apply gv_pure. intros r E. eapply mask_ok; [reflexivity| |exact E]. eapply Forall_impl; [|exact F].
    intros v T. unfold ar in *. cbn [arity]. now rewrite T, orb_true_r.
  - cbn [validate plain_tuples] in V, P. apply andb_prop in V as (V & V2), P as (P1 & P2). apply andb_prop in V as (_ & V1).
    cbn [deser]. apply gv_check. destruct (rows =? 0); [apply gv_ret; constructor|].
    eapply gv_bind; [apply gv_local, local_n, local_le|]. intros offs _. cbv zeta. eapply gv_bind; [now apply IHk|]. intros ks Fk.
    destruct (negb _); [apply gv_panic|]. eapply gv_bind; [now apply IHw|]. intros vs Fv. destruct (negb _); [apply gv_panic|].
    apply gv_pure. intros r E. eapply split_arity; eauto.
Qed.

Lemma arity_shape : forall t v, validate t = true -> inner_validate t v = true -> writable t v = true -> arity t (normal t v) = true -> shape_ok t v = true.
Proof.
  induction t as [t Hl|t IH|t IH|ts IH|t IH|k w IHk IHw] using ty_ind_leaf; intros v V I W A.
  - now apply leaf_shape.
  - cbn [validate] in V. apply andb_prop in V as (V1 & _). destruct t; try discriminate V1; try (destruct v; reflexivity).
    cbn [strip_null] in V1. destruct t; try discriminate V1; destruct v; reflexivity.
  - destruct v; try discriminate I. cbn [validate inner_validate writable normal arity shape_ok] in *. apply forallb_forall. intros x Hx.
    apply IH; [exact V|now apply (proj1 (forallb_forall _ _) I)|now apply (proj1 (forallb_forall _ _) W)|].
    apply (proj1 (forallb_forall _ _) A). now apply in_map.
  - destruct v; try discriminate I. cbn [validate inner_validate writable normal arity shape_ok] in *.
    apply andb_prop in W as (W1 & W2), A as (A1 & A2). apply N.leb_le in W1. apply N.eqb_eq in A1.
    assert (K : forall ts l, Forall (fun t => forall v, validate t = true -> inner_validate t v = true -> writable t v = true -> arity t (normal t v) = true -> shape_ok t v = true) ts ->
      forallb validate ts = true -> zip_all inner_validate ts l = true -> zip_all writable ts l = true -> zip_all arity ts (zip_with normal ts l) = true ->
      length (zip_with normal ts l) = length ts -> (length l <= length ts)%nat -> length ts = length l /\ zip_all shape_ok ts l = true).
    { clear. induction ts as [|t ts IH]; intros l F V I W A L1 L2; [destruct l; [split; reflexivity|cbn in L2; lia]|].
      destruct l as [|v l]; [discriminate L1|]. cbn [forallb zip_all zip_with length] in *.
      apply andb_prop in V as (? & ?), I as (? & ?), W as (? & ?), A as (? & ?).
      destruct (IH l) as (E & S); try assumption; try lia; [now apply Forall_inv_tail in F|]. split; [lia|].
      change ((fix go (l0 : list ty) (m0 : list value) {struct l0} := _) ts l) with (zip_all shape_ok ts l).
      rewrite S, andb_true_r. apply (Forall_inv F); assumption. }
    destruct (K ts l IH V I W2 A2) as (E & S); [unfold lenN in A1; lia|unfold lenN in W1; lia|].
    rewrite S, andb_true_r. apply N.eqb_eq. unfold lenN. lia.
  - cbn [validate] in V. apply andb_prop in V as (V1 & V2). cbn [writable shape_ok] in *. destruct (is_null v); [exact W|].
    apply leaf_shape. destruct t; try reflexivity; discriminate V1.
  - cbn [validate] in V. apply andb_prop in V as (V & V2). apply andb_prop in V as (_ & V1).
    destruct v as [| | | | | | | | | | | | | | | | | | | | |ks vs0| | | | | |]; try discriminate I.
    cbn [inner_validate writable normal arity shape_ok] in *. apply andb_prop in W as (W & W2), A as (A1 & A2), I as (I1 & I2). apply andb_prop in W as (W0 & W1).
    rewrite W0. cbn [andb]. apply andb_true_intro. split; apply forallb_forall; intros x Hx.
    + apply IHk; [exact V1|now apply (proj1 (forallb_forall _ _) I1)|now apply (proj1 (forallb_forall _ _) W1)|]. apply (proj1 (forallb_forall _ _) A1). now apply in_map.
    + apply IHw; [exact V2|now apply (proj1 (forallb_forall _ _) I2)|now apply (proj1 (forallb_forall _ _) W2)|]. apply (proj1 (forallb_forall _ _) A2). now apply in_map.
Qed.

(* ---------------- validated values ---------------- *)
Lemma validated_accepted t vs : Forall (fun v => validate_value t v = Ok tt /\ representable v = true) vs -> vs <> [] ->
  validate t = true /\ Forall (accepted t) vs.
Proof.
  intros H Hne.
  assert (G : forall v, validate_value t v = Ok tt -> validate t = true /\ inner_validate t v = true).
  { intros v. unfold validate_value. destruct (validate t); [|discriminate]. cbn [negb].
    destruct (inner_validate t v); [auto|]. cbn [negb]. destruct (fmt_panics v); discriminate. }
  split.
  - destruct vs as [|v vs]; [congruence|]. inversion H as [|x l (Hv & _) _]; subst. now apply G in Hv.
  - eapply Forall_impl; [|exact H]. intros v (Hv & Hr). apply G in Hv as [_ Hv]. now split.
Qed.

Lemma validated_written t vs : Forall (fun v => validate_value t v = Ok tt /\ representable v = true) vs -> fits t vs -> vs <> [] ->
  ((exists bs, ser t vs = Ok bs) <-> Forall (fun v => writable t v = true) vs) /\
  (ser t vs = Panic <-> ~ Forall (fun v => writable t v = true) vs).
Proof.
  intros H F Hne. destruct (validated_accepted t vs H Hne) as (V & A). pose proof (ser_writes t vs V A F) as W. unfold writes in W.
  destruct (forallb (writable t) vs) eqn:E.
  - assert (FA : Forall (fun v => writable t v = true) vs) by (apply Forall_forall; exact (proj1 (forallb_forall _ _) E)).
    destruct W as (bs & W & _). split; split; intros X; eauto; try congruence.
  - assert (FA : ~ Forall (fun v => writable t v = true) vs).
    { intros X. assert (Y : forallb (writable t) vs = true) by (apply forallb_forall; exact (proj1 (Forall_forall _ _) X)). congruence. }
    split; split; intros X; auto; [destruct X; congruence|contradiction].
Qed.

Lemma comes_back_shaped t vs bs rest : plain_tuples t = true ->
  Forall (fun v => validate_value t v = Ok tt /\ representable v = true) vs -> fits t vs -> vs <> [] ->
  ser t vs = Ok bs -> deser t (lenN vs) bs = Ok (map (normal t) vs, rest) -> Forall (fun v => shape_ok t v = true) vs.
Proof.
  intros P H F Hne E D. destruct (validated_accepted t vs H Hne) as (V & A). pose proof (ser_writes t vs V A F) as W.
  unfold writes in W. destruct (forallb (writable t) vs) eqn:Ew; [|congruence]. destruct W as (bs' & E' & B). assert (bs' = bs) by congruence. subst bs'.
  destruct (deser_arity t V P _ _ _ _ B D) as (Q & _). apply Forall_forall. intros v Hv.
  destruct (proj1 (Forall_forall _ _) A v Hv) as (_ & I). apply arity_shape; auto; [now apply (proj1 (forallb_forall _ _) Ew)|].
  apply (proj1 (Forall_forall _ _) Q). now apply in_map.
Qed.
