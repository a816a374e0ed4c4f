(** Writing a derived struct: exactly what is written, and why it fails. *)
From Coq Require Import String.
From Verif Require Import Base Types Text RawRow Numeric Convert ConvertSpec Migrate Derive DeriveSpec DeriveProofs DeriveProofs2 DeriveProofs3 NestedSpec NestedProofs WriteSpec.
Local Open Scope list_scope.
Local Open Scope N_scope.

Lemma flat_free_settled k : flat_free k = true -> kind_settled k = true.
Proof. destruct k; intros H; [reflexivity|exact H|discriminate]. Qed.
Lemma writes_skipped hints k i x cs : i_skip_ser i = true -> (kind_writes hints k i x cs <-> cs = []).
Proof. intros S. destruct k; cbn [kind_writes]; rewrite S; tauto. Qed.

Definition exact_kind (k : kind) : Prop := forall hints i x, kind_settled k = true -> i_skip_ser i = false ->
  (forall cs, kind_serialize hints i k x = Ok cs <-> kind_writes hints k i x cs) /\
  (forall cs, kind_writes hints k i x cs -> map fst cs = kind_names (i_name i) k).
Lemma exact_fields fs : Forall (fun f => exact_kind (snd f)) fs -> settled fs = true -> forall hints xs,
  (forall cs, serialize hints fs xs = Ok cs <-> writes hints fs xs cs) /\ (forall cs, writes hints fs xs cs -> map fst cs = column_names fs).
Proof.
  intros F S hints. unfold settled in S. induction F as [|[i k] fs K F IH]; intros xs.
  - split; intros cs.
    + destruct xs as [|x xs]; cbn [serialize]; split; intros H; try discriminate; try (destruct H as ([|? ?] & _ & []); fail).
      * injection H as <-. exists []. split; [reflexivity|exact I].
      * destruct H as ([|? ?] & -> & H); [reflexivity|destruct H].
    + intros ([|? ?] & -> & H); [reflexivity|destruct xs; destruct H].
  - cbn [forallb snd] in S. apply andb_true_iff in S as [S1 S2]. specialize (IH S2). destruct xs as [|x xs].
    { split; intros cs; [|intros ([|? ?] & _ & [])]. cbn [serialize]. split; intros H; [discriminate|destruct H as ([|? ?] & _ & [])]. }
    destruct (IH xs) as [IE IN].
    assert (Cons : forall cs, writes hints ((i, k) :: fs) (x :: xs) cs <-> exists a b, cs = a ++ b /\ kind_writes hints k i x a /\ writes hints fs xs b).
    { intros cs. split.
      - intros ([|a css] & -> & H); [destruct H|]. destruct H as [H1 H2]. exists a, (concat css). split; [reflexivity|]. split; [exact H1|]. exists css. now split.
      - intros (a & b & -> & H1 & css & -> & H2). exists (a :: css). split; [reflexivity|]. now split. }
    unfold column_names. cbn [serialize flat_map fst snd]. fold (column_names fs). destruct (i_skip_ser i) eqn:Sk.
    + split; intros cs.
      * rewrite IE, Cons. split; [intros H; exists [], cs; split; [reflexivity|split; [now apply writes_skipped|exact H]]|].
        intros (a & b & -> & H1 & H2). apply (writes_skipped hints k i x a Sk) in H1. now subst a.
      * intros H. apply Cons in H as (a & b & -> & H1 & H2). apply (writes_skipped hints k i x a Sk) in H1. subst a. cbn [app]. now apply IN.
    + destruct (K hints i x S1 Sk) as [KE KN]. cbn [snd] in KE, KN. split; intros cs.
      * rewrite Cons. split.
        -- intros H. destruct (kind_serialize hints i k x) as [a| |] eqn:A; cbn [rbind] in H; try discriminate. destruct (serialize hints fs xs) as [b| |] eqn:B; cbn [rbind] in H; try discriminate.
           injection H as <-. exists a, b. split; [reflexivity|]. split; [now apply KE|now apply IE].
        -- intros (a & b & -> & H1 & H2). apply KE in H1. apply IE in H2. rewrite H1, H2. reflexivity.
      * intros H. apply Cons in H as (a & b & -> & H1 & H2). rewrite map_app. f_equal; [now apply KN|now apply IN].
Qed.

Lemma transposed_eq name names table : Forall (fun row => map fst row = names) table ->
  nested_columns name (List.length names) names table = Ok (transposed name names table).
Proof.
  intros F. rewrite (nested_columns_ok name (List.length names) names table (fun _ => TString) eq_refl F). f_equal. unfold transposed, table_of. rewrite map_map. cbn [fst snd].
  apply map_ext. intros [j c]. cbn [fst snd]. unfold dotted. rewrite <- app_assoc. f_equal. f_equal. apply map_ext. intros row.
  change VNull with (snd (@nil N, VNull)) at 2. now rewrite map_nth.
Qed.
Lemma transposed_names name names table : map fst (transposed name names table) = map (fun c => dotted name ++ c) names.
Proof.
  unfold transposed. rewrite map_map. cbn [fst snd]. unfold dotted. generalize 0%nat. induction names as [|c names IH]; intros s; [reflexivity|].
  cbn [List.length seq combine map fst snd]. rewrite IH. rewrite <- app_assoc. reflexivity.
Qed.
Lemma mapM_all2 {A B} (f : A -> res B) (R : A -> B -> Prop) : (forall x y, f x = Ok y <-> R x y) -> forall l ys, mapM f l = Ok ys <-> all2 R l ys.
Proof.
  intros E. induction l as [|x l IH]; intros ys; cbn [mapM].
  - destruct ys as [|y ys]; cbn [all2]; split; intros H; try discriminate; try destruct H; reflexivity.
  - split.
    + intros H. destruct (f x) as [y| |] eqn:Y; cbn [rbind] in H; try discriminate. destruct (mapM f l) as [zs| |] eqn:Z; cbn [rbind] in H; try discriminate. injection H as <-.
      split; [now apply E|]. now apply IH.
    + destruct ys as [|y ys]; intros H; [destruct H|]. destruct H as [H1 H2]. apply E in H1. apply IH in H2. rewrite H1, H2. reflexivity.
Qed.
Lemma all2_right {A B} (R : A -> B -> Prop) (P : B -> Prop) : (forall x y, R x y -> P y) -> forall l ys, all2 R l ys -> Forall P ys.
Proof. intros H. induction l as [|x l IH]; intros [|y ys] A2; try destruct A2; constructor; eauto. Qed.

Lemma kinds_exact k : exact_kind k.
Proof.
  induction k as [r|fs IH|fs IH] using kind_ind'; intros hints i x S Sk; cbn [kind_writes]; rewrite Sk.
  - split; intros cs.
    + destruct x as [y| |]; cbn [kind_serialize]; [|split; [discriminate|intros (y & v & E & _); discriminate]..]. split.
      * intros H. destruct (to_sql r y (hints (i_name i))) as [v| |] eqn:V; cbn [rbind] in H; try discriminate. injection H as <-. exists y, v. auto.
      * intros (y' & v & E & V & ->). injection E as <-. rewrite V. reflexivity.
    + intros (y & v & _ & _ & ->). reflexivity.
  - assert (S' : settled fs = true).
    { cbn [kind_settled flat_free] in S. unfold settled. apply forallb_forall. intros f H. apply flat_free_settled. exact (proj1 (forallb_forall _ _) S f H). }
    pose proof (exact_fields fs IH S' hints) as X. destruct (flat_count (KNested fs) S) as [n Cn].
    split; intros cs.
    + destruct x as [|rows|]; [cbn [kind_serialize]; split; [discriminate|intros (rows & t & E & _); discriminate]| |cbn [kind_serialize]; split; [discriminate|intros (rows & t & E & _); discriminate]].
      rewrite kind_serialize_nested. assert (Cn' : column_count fs = Some n) by exact Cn. rewrite Cn'. rewrite <- (column_count_names fs n Cn').
      assert (M : forall rs, mapM (serialize hints fs) rows = Ok rs <-> all2 (writes hints fs) rows rs) by (intros rs; apply mapM_all2; intros a b; exact (proj1 (X a) b)).
      assert (NM : forall rs, all2 (writes hints fs) rows rs -> Forall (fun row => map fst row = column_names fs) rs).
      { intros rs. apply all2_right. intros a b. exact (proj2 (X a) b). }
      split.
      * intros H. destruct (mapM (serialize hints fs) rows) as [rs| |] eqn:E; cbn [rbind] in H; try discriminate. pose proof (proj1 (M rs) eq_refl) as W. rewrite transposed_eq in H by now apply NM. injection H as <-.
        exists rows, rs. split; [reflexivity|]. split; [exact W|reflexivity].
      * intros (rows' & rs & E & W & ->). injection E as <-. assert (W' : all2 (writes hints fs) rows rs) by exact W. rewrite (proj2 (M rs) W'). cbn [rbind]. apply transposed_eq. now apply NM.
    + intros (rows & rs & _ & _ & ->). rewrite transposed_names. now rewrite kind_names_nested.
  - assert (S' : settled fs = true) by exact S. pose proof (exact_fields fs IH S' hints) as X. split; intros cs.
    + destruct x as [| |xs]; [cbn [kind_serialize]; split; [discriminate|intros (xs & E & _); discriminate]..|]. rewrite kind_serialize_flat. rewrite (proj1 (X xs)). split.
      * intros H. exists xs. split; [reflexivity|exact H].
      * intros (xs' & E & H). injection E as <-. exact H.
    + intros (xs & _ & H). rewrite kind_names_flat. exact (proj2 (X xs) cs H).
Qed.
Lemma serialize_exactly hints fs xs : settled fs = true -> forall cs, serialize hints fs xs = Ok cs <-> writes hints fs xs cs.
Proof. intros S. apply exact_fields; [|exact S]. apply Forall_forall. intros f _. apply kinds_exact. Qed.
Lemma writes_names hints fs xs cs : settled fs = true -> writes hints fs xs cs -> map fst cs = column_names fs.
Proof. intros S. apply exact_fields; [|exact S]. apply Forall_forall. intros f _. apply kinds_exact. Qed.

(** ** Failures *)
Definition outcome {A} (l : list (res value)) (r : res A) : Prop :=
  match find (fun c => negb (is_ok c)) l with Some c => failed_as c r | None => is_ok r = true end.
Lemma failed_not_ok {A B} (c : res value) (r : res A) (k : A -> res B) : failed_as c r -> failed_as c (rbind r k).
Proof. destruct c, r; cbn [failed_as rbind]; try tauto. Qed.
Lemma outcome_app {A B C} l1 l2 (r1 : res A) (r2 : res B) (k : A -> B -> C) : outcome l1 r1 -> outcome l2 r2 -> outcome (l1 ++ l2) (a <- r1 ;; b <- r2 ;; Ok (k a b)).
Proof.
  intros O1 O2. unfold outcome in *. induction l1 as [|c l1 IH]; cbn [find app] in *.
  - destruct r1 as [a| |]; try discriminate. cbn [rbind]. destruct (find _ l2) as [c|]; [now apply failed_not_ok|]. destruct r2; [reflexivity|discriminate..].
  - destruct (negb (is_ok c)); [now apply failed_not_ok|]. exact (IH O1).
Qed.
Lemma outcome_bind {A B} l (r : res A) (k : A -> res B) : outcome l r -> (forall a, r = Ok a -> is_ok (k a) = true) -> outcome l (rbind r k).
Proof.
  unfold outcome. destruct (find _ l) as [c|]; intros O H; [now apply failed_not_ok|]. destruct r as [a| |]; try discriminate. cbn [rbind]. now apply H.
Qed.
Definition fails_kind (k : kind) : Prop := forall hints i x, kind_settled k = true -> i_skip_ser i = false -> kind_shape k x ->
  outcome (kind_conversions hints k i x) (kind_serialize hints i k x).
Lemma conversions_skipped hints k i x : i_skip_ser i = true -> kind_conversions hints k i x = [].
Proof. intros S. destruct k; cbn [kind_conversions]; rewrite S; reflexivity. Qed.
Lemma conversions_cons hints f fs x xs : conversions hints (f :: fs) (x :: xs) = kind_conversions hints (snd f) (fst f) x ++ conversions hints fs xs.
Proof. reflexivity. Qed.
Lemma fails_fields fs : Forall (fun f => fails_kind (snd f)) fs -> settled fs = true -> forall hints xs, value_of fs xs -> outcome (conversions hints fs xs) (serialize hints fs xs).
Proof.
  intros F S hints. unfold settled in S. induction F as [|[i k] fs K F IH]; intros xs V.
  - destruct xs; [reflexivity|destruct V].
  - cbn [forallb snd] in S. apply andb_true_iff in S as [S1 S2]. specialize (IH S2). destruct xs as [|x xs]; [destruct V|]. destruct V as [V1 V2]. cbn [snd] in V1.
    rewrite conversions_cons. cbn [fst snd serialize]. destruct (i_skip_ser i) eqn:Sk; [rewrite conversions_skipped by exact Sk; exact (IH xs V2)|].
    apply outcome_app; [exact (K hints i x S1 Sk V1)|exact (IH xs V2)].
Qed.
Lemma inside_conversions hints i fs xs : i_skip_ser i = false -> kind_conversions hints (KFlatten fs) i (SSub xs) = conversions hints fs xs.
Proof.
  intros Sk. cbn [kind_conversions]. rewrite Sk. unfold conversions. revert xs. induction fs as [|f fs IH]; intros [|x xs]; try reflexivity. cbn [combine flat_map fst snd]. now rewrite <- IH.
Qed.
Lemma nested_conversions hints i fs rows : i_skip_ser i = false -> kind_conversions hints (KNested fs) i (SVec rows) = flat_map (conversions hints fs) rows.
Proof.
  intros Sk. cbn [kind_conversions]. rewrite Sk. apply flat_map_ext. intros xs. rewrite <- (inside_conversions hints i fs xs Sk). cbn [kind_conversions]. rewrite Sk. reflexivity.
Qed.
Lemma kinds_fail k : fails_kind k.
Proof.
  induction k as [r|fs IH|fs IH] using kind_ind'; intros hints i x S Sk V.
  - destruct x as [y| |]; try (destruct V; fail). cbn [kind_conversions kind_serialize]. rewrite Sk. unfold outcome. cbn [find].
    destruct (to_sql r y (hints (i_name i))); cbn [is_ok negb rbind failed_as]; reflexivity || exact I.
  - destruct x as [|rows|]; try (destruct V; fail). cbn [kind_shape] in V. rewrite nested_conversions by exact Sk. rewrite kind_serialize_nested.
    assert (S' : settled fs = true).
    { cbn [kind_settled flat_free] in S. unfold settled. apply forallb_forall. intros f H. apply flat_free_settled. exact (proj1 (forallb_forall _ _) S f H). }
    destruct (flat_count (KNested fs) S) as [n Cn]. assert (Cn' : column_count fs = Some n) by exact Cn. rewrite Cn'. apply outcome_bind.
    + pose proof (fails_fields fs IH S' hints) as X. clear Cn Cn' n. induction rows as [|row rows IHr]; [reflexivity|]. cbn [flat_map mapM].
      apply outcome_app; [apply X; exact (Forall_inv V)|apply IHr; exact (Forall_inv_tail V)].
    + intros rs E. assert (F : Forall (fun row => map fst row = column_names fs) rs).
      { assert (A2 : all2 (writes hints fs) rows rs) by (revert E; apply mapM_all2; intros a b; apply (serialize_exactly hints fs a S' b)).
        revert A2. apply all2_right. intros a b. exact (writes_names hints fs a b S'). }
      rewrite <- (column_count_names fs n Cn'). rewrite transposed_eq by exact F. reflexivity.
  - destruct x as [| |xs]; try (destruct V; fail). rewrite inside_conversions by exact Sk. rewrite kind_serialize_flat. now apply fails_fields.
Qed.
Lemma serialize_outcome hints fs xs : settled fs = true -> value_of fs xs -> outcome (conversions hints fs xs) (serialize hints fs xs).
Proof. intros S. apply fails_fields; [|exact S]. apply Forall_forall. intros f _. apply kinds_fail. Qed.
Lemma outcome_first {A} pre c post (r : res A) : outcome (pre ++ c :: post) r -> forallb is_ok pre = true -> is_ok c = false -> failed_as c r.
Proof.
  unfold outcome. induction pre as [|p pre IH]; cbn [app find forallb]; intros O P C; [rewrite C in O; exact O|].
  apply andb_true_iff in P as [P1 P2]. rewrite P1 in O. cbn [negb] in O. auto.
Qed.
Lemma outcome_all {A} l (r : res A) : outcome l r -> forallb is_ok l = true -> is_ok r = true.
Proof.
  unfold outcome. induction l as [|c l IH]; cbn [find forallb]; intros O P; [exact O|]. apply andb_true_iff in P as [P1 P2]. rewrite P1 in O. cbn [negb] in O. auto.
Qed.
(** A nested field whose struct has a flattened field. *)
Lemma nested_flatten_panics hints i fs rows : existsb (fun f => is_flatten (snd f)) fs = true -> kind_serialize hints i (KNested fs) (SVec rows) = Panic.
Proof. intros H. rewrite kind_serialize_nested. unfold column_count. rewrite kind_count_nested, H. reflexivity. Qed.
