(** Reading any value of a column into any Rust type never panics. *)
From Verif Require Import Base Io Types Ser Deser Text Utf8 RawRow Numeric ColumnSpec Convert ConvertSpec ConvertProofs.

Lemma mapM_no_panic {A B} (f : A -> res B) l : (forall a, In a l -> f a <> Panic) -> mapM f l <> Panic.
Proof.
  induction l as [|a l IH]; intros H; [discriminate|]. cbn [mapM]. pose proof (H a (or_introl eq_refl)) as Ha.
  destruct (f a); cbn [rbind]; try congruence. specialize (IH (fun b I => H b (or_intror I))). destruct (mapM f l); cbn [rbind]; congruence.
Qed.
Lemma rbind_no_panic {A B} (x : res A) (f : A -> res B) : x <> Panic -> (forall a, x = Ok a -> f a <> Panic) -> rbind x f <> Panic.
Proof. destruct x; cbn [rbind]; intros H K; try congruence. now apply K. Qed.
Lemma typed_strip t v : typed (strip_low_cardinality t) v = typed t v.
Proof. destruct t; reflexivity. Qed.

Lemma dec_try_no_panic m s : dec_try m s <> Panic.
Proof. unfold dec_try. destruct (_ && _); discriminate. Qed.
Lemma dec_from_no_panic v : dec_from_sql v <> Panic.
Proof.
  destruct v; cbn [dec_from_sql]; try discriminate; try apply dec_try_no_panic.
  destruct w; try apply dec_try_no_panic. destruct (_ <=? _); [discriminate|apply dec_try_no_panic].
Qed.

Lemma leaf_no_panic l t v : leaf_type l t = true -> typed t v = true -> leaf_content l v <> None.
Proof.
  destruct l, t; cbn [leaf_type]; try discriminate; intros L T;
    try (apply iw_eqb_eq in L; subst); destruct v; cbn [typed same_scalar] in T; try discriminate;
    cbn [leaf_content]; try discriminate.
  all: repeat match goal with w : iw |- _ => destruct w end; cbn [typed same_scalar iw_eqb] in *; try discriminate.
Qed.

Lemma typed_bytes w l : (w = TUInt I8 \/ w = TInt I8) -> forallb (typed w) l = true -> mapM byte_from_value l <> Panic.
Proof.
  intros W H. apply mapM_no_panic. intros v I. pose proof (proj1 (forallb_forall _ _) H v I) as T.
  destruct W as [->| ->]; destruct v; cbn [typed same_scalar] in T; try discriminate; destruct w; try discriminate.
Qed.

Lemma safe r : calm r -> forall t v, typed t v = true -> from_sql r t v <> Panic.
Proof.
  induction r as [l| | | | | | |r IH|n r IH|r IH|r IH|r IH|rs IH|rk rv IHk IHv|ua uf ug] using rty_nested_ind; intros NC t v T; cbn [calm] in NC.
  - cbn [from_sql]. destruct (leaf_type l t) eqn:L; [|discriminate]. pose proof (leaf_no_panic l t v L T). destruct (leaf_content l v); congruence.
  - cbn [from_sql]. destruct t; try discriminate. destruct w; try discriminate. destruct v; cbn [typed same_scalar] in T; try discriminate. destruct w; discriminate.
  - cbn [from_sql]. destruct t; try discriminate; destruct v; cbn [typed same_scalar] in T; try discriminate; cbn [rstring_from]; destruct (utf8_decode bs); discriminate.
  - cbn [from_sql]. apply rbind_no_panic; [|discriminate]. unfold bytes_from_sql. destruct t; try discriminate.
    + destruct v; cbn [typed same_scalar] in T; discriminate.
    + destruct v; cbn [typed same_scalar] in T; discriminate.
    + destruct t; try discriminate; destruct w; try discriminate; destruct v; cbn [typed same_scalar] in T; try discriminate;
        [apply (typed_bytes (TInt I8) l) | apply (typed_bytes (TUInt I8) l)]; auto.
  - discriminate.
  - cbn [from_sql]. apply rbind_no_panic; [apply dec_from_no_panic|discriminate].
  - destruct NC.
  - cbn [from_sql]. destruct t; try discriminate. destruct v; cbn [typed same_scalar] in T; try discriminate.
    apply rbind_no_panic; [|discriminate]. apply mapM_no_panic. intros a I. apply (IH NC). rewrite typed_strip. apply (proj1 (forallb_forall _ _) T a I).
  - cbn [from_sql]. destruct t; try discriminate. destruct v; cbn [typed same_scalar] in T; try discriminate. destruct (lenN l =? n); [|discriminate].
    apply rbind_no_panic; [|discriminate]. apply mapM_no_panic. intros a I. apply (IH NC). rewrite typed_strip. apply (proj1 (forallb_forall _ _) T a I).
  - cbn [from_sql]. destruct t as [| | | | | | | | | | | | | | | | | | | | | | | | | | |ts| |]; try discriminate. destruct v; cbn [typed same_scalar] in T; try discriminate; rename l into vs.
    rewrite N.eqb_sym. destruct (lenN ts =? lenN vs); [|discriminate].
    apply rbind_no_panic; [|discriminate]. apply mapM_no_panic. intros [t v] I. cbn [fst snd]. apply (IH NC).
    clear -T I. revert vs T I. induction ts as [|a ts IHt]; intros [|b vs] T I; cbn [combine] in I; try destruct I. 
    + injection H as -> ->. cbn [zip_all] in T. now apply andb_prop in T.
    + cbn [zip_all] in T. apply andb_prop in T as [_ T]. exact (IHt vs T H).
  - cbn [from_sql]. destruct v eqn:Ev; try discriminate; (apply rbind_no_panic; [|discriminate]); rewrite <- Ev in *; apply (IH NC).
    all: destruct t; try exact T; rewrite typed_strip; cbn [typed] in T; rewrite Ev in T |- *; exact T.
  - cbn [from_sql]. now apply IH.
  - cbn [from_sql]. destruct t as [| | | | | | | | | | | | | | | | | | | | | | | | | | |ts| |]; try discriminate. destruct v; cbn [typed same_scalar] in T; try discriminate; rename l into vs.
    rewrite (N.eqb_sym (lenN vs)). destruct (lenN ts =? lenN vs) eqn:L; [|discriminate]. cbn [negb]. destruct (negb _); [discriminate|].
    apply rbind_no_panic; [|discriminate]. clear L. revert ts vs T. induction IH as [|r rs IHr _ IHrs]; intros [|t ts] [|v vs] T; try discriminate.
    cbn [zip_all] in T. destruct NC as [N1 NC]. apply andb_prop in T as [T1 T].
    apply rbind_no_panic; [apply (IHr N1); now rewrite typed_strip|]. intros x _. apply rbind_no_panic; [|discriminate]. now apply IHrs.
  - cbn [from_sql]. destruct NC as [N1 N2]. destruct t; try discriminate. destruct v; cbn [typed same_scalar] in T; try discriminate.
    apply andb_prop in T as [T T2]. apply andb_prop in T as [_ T1]. apply rbind_no_panic; [|discriminate]. apply mapM_no_panic. intros [a b] I.
    cbn [fst snd]. apply rbind_no_panic; [apply (IHk N1)|intros x _; apply rbind_no_panic; [apply (IHv N2)|discriminate]]; rewrite typed_strip.
    + apply (proj1 (forallb_forall _ _) T1). eapply in_combine_l, I.
    + apply (proj1 (forallb_forall _ _) T2). eapply in_combine_r, I.
  - cbn [from_sql]. now apply NC.
Qed.
