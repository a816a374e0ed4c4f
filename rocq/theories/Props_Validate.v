(** Property C68: what validation accepts. *)
From Coq Require Import String Lia.
From Verif Require Import Base Types Text TypeText ValidateSpec Props_TypeText.
Local Open Scope list_scope.
Local Open Scope N_scope.

Lemma lc_allowed_iff t : lc_allowed t = true <-> low_card t.
Proof. split; [destruct t; try discriminate; constructor|]. now destruct 1. Qed.
Lemma map_key_iff t : map_key_allowed t = true <-> map_key t.
Proof. split; [destruct t; try discriminate; constructor|]. now destruct 1. Qed.
Lemma low_card_valid t : lc_allowed t = true -> validate t = true.
Proof. destruct t; try discriminate; reflexivity. Qed.

(** [Type::validate] accepts exactly the valid types. *)
Theorem C68_valid_types : forall t, validate t = true <-> valid_type t.
Proof.
  assert (RNG : forall p m, (1 <=? p) && (p <=? m) = true <-> 1 <= p <= m) by (intros; lia).
  induction t as [t Hl|t IH|t IH|ts IH|t IH|k v IHk IHv] using ty_ind_leaf.
  - destruct t; try discriminate Hl; cbn [validate]; try (split; [intros _; apply v_plain; constructor|reflexivity]).
    all: rewrite RNG; split; [intros H; constructor; exact H|]; intros H; inversion H; subst; try assumption;
      match goal with H : plain _ |- _ => inversion H end.
  - cbn [validate]. split.
    + intros H. apply andb_prop in H as (H1 & H2). destruct t; try discriminate H1; try (apply v_lc, lc_allowed_iff; reflexivity).
      cbn [strip_null] in H1. destruct t; try discriminate H1; apply v_lc_null, lc_allowed_iff; reflexivity.
    + intros H. inversion H as [t' Hp| | | | | |t' Hc|t' Hc| | | |]; subst; [inversion Hp| |].
      * apply lc_allowed_iff in Hc. destruct t; try discriminate Hc; reflexivity.
      * apply lc_allowed_iff in Hc. destruct t'; try discriminate Hc; reflexivity.
  - cbn [validate]. rewrite IH. split; [apply v_array|]. intros H. inversion H as [t' Hp| | | | | | | | | | |]; subst; [inversion Hp|assumption].
  - cbn [validate]. rewrite forallb_forall. pose proof (proj1 (Forall_forall _ _) IH) as IH'. split.
    + intros H. apply v_tuple. intros t Ht. apply IH'; auto.
    + intros H t Ht. apply IH'; [exact Ht|]. inversion H as [t' Hp| | | | | | | | | | |]; subst; [inversion Hp|auto].
  - cbn [validate]. rewrite Bool.andb_true_iff, IH. split.
    + intros (H1 & H2). apply v_null; [exact H2| | | | |]; intros; intros ->; discriminate H1.
    + intros H. inversion H as [t' Hp| | | | | | | | | |t' Hv N1 N2 N3 N4 N5|]; subst; [inversion Hp|]. split; [|exact Hv].
      destruct t; try reflexivity; exfalso; [eapply N3|eapply N1|eapply N4|eapply N5|eapply N2]; reflexivity.
  - cbn [validate]. rewrite !Bool.andb_true_iff, IHk, IHv, map_key_iff. split.
    + intros ((H1 & H2) & H3). now apply v_map.
    + intros H. inversion H as [t' Hp| | | | | | | | | | |]; subst; [inversion Hp|auto].
Qed.

Lemma bytes_iff l : forallb is_byte_value l = true <-> (forall v, In v l -> exists x, v = VUInt I8 x \/ exists y, v = VInt I8 y).
Proof.
  rewrite forallb_forall. split; intros H v Hv; specialize (H v Hv).
  - destruct v; try discriminate H; destruct w; try discriminate H; [exists 0; right|exists x; left]; eauto.
  - destruct H as (x & [->|(y & ->)]); reflexivity.
Qed.
Lemma zip_all_iff {A B} (f : A -> B -> bool) : forall l m,
  zip_all f l m = true <-> (forall i a b, nth_error l i = Some a -> nth_error m i = Some b -> f a b = true).
Proof.
  induction l as [|a l IH]; intros m.
  - split; [|reflexivity]. intros _ [|i] a b H; discriminate H.
  - destruct m as [|b m]; cbn [zip_all].
    + split; [|reflexivity]. intros _ [|i] a' b' _ H; discriminate H.
    + rewrite Bool.andb_true_iff. change ((fix go (l0 : list A) (m0 : list B) {struct l0} := _) l m) with (zip_all f l m). rewrite IH. split.
      * intros (H1 & H2) [|i] a' b' E1 E2; cbn in *; [congruence|eauto].
      * intros H. split; [exact (H O a b eq_refl eq_refl)|]. intros i a' b' E1 E2. exact (H (S i) a' b' E1 E2).
Qed.

Theorem inner_validate_iff : forall t v, inner_validate t v = true <-> belongs t v.
Proof.
  induction t as [t Hl|t IH|t IH|ts IH|t IH|k w IHk IHw] using ty_ind_leaf; intros v.
  - split.
    + intros H. destruct t; try discriminate Hl; destruct v; repeat match goal with w : iw |- _ => destruct w end; try discriminate H; cbn [inner_validate] in H;
        try (apply N.eqb_eq in H; subst); try constructor;
        try (now apply bytes_iff).
      * apply andb_prop in H as (H1 & H2). apply N.eqb_eq in H1, H2. subst. constructor.
      * apply existsb_exists in H as ((n & y) & H1 & H2). apply Z.eqb_eq in H2. cbn in H2. subst. econstructor. exact H1.
      * apply existsb_exists in H as ((n & y) & H1 & H2). apply Z.eqb_eq in H2. cbn in H2. subst. econstructor. exact H1.
    + intros H. destruct H; try discriminate Hl; cbn [inner_validate]; try reflexivity; try (now apply N.eqb_refl); try (now apply bytes_iff).
      * now destruct w.
      * now destruct w.
      * now rewrite !N.eqb_refl.
      * apply existsb_exists. exists (name, x). split; [assumption|apply Z.eqb_refl].
      * apply existsb_exists. exists (name, x). split; [assumption|apply Z.eqb_refl].
  - assert (E : inner_validate (TLowCard t) v = inner_validate t v) by (destruct v; reflexivity). rewrite E, IH.
    split; [apply b_lc|]. intros H. now inversion H.
  - split.
    + intros H. destruct v; try discriminate H. cbn [inner_validate] in H. apply b_array. intros v Hv. apply IH. now apply (proj1 (forallb_forall _ _) H).
    + intros H. inversion H; subst. cbn [inner_validate]. apply forallb_forall. intros v Hv. apply IH. auto.
  - pose proof (proj1 (Forall_forall _ _) IH) as IH'. split.
    + intros H. destruct v; try discriminate H. cbn [inner_validate] in H. apply b_tuple. intros i t v E1 E2.
      apply IH'; [now apply nth_error_In in E1|]. exact (proj1 (zip_all_iff _ _ _) H i t v E1 E2).
    + intros H. inversion H as [| | | | | | | | | | | | | | | | | | | | | | | | | | | | | | | |ts' vs HB|]; subst. cbn [inner_validate].
      apply zip_all_iff. intros i t v E1 E2. apply IH'; [now apply nth_error_In in E1|]. eauto.
  - assert (E : inner_validate (TNullable t) v = is_null v || inner_validate t v) by (destruct v; reflexivity). rewrite E, Bool.orb_true_iff, IH. split.
    + intros [H|H]; [destruct v; try discriminate H; apply b_null|now apply b_some].
    + intros H. inversion H; subst; auto.
  - split.
    + intros H. destruct v; try discriminate H. cbn [inner_validate] in H. apply andb_prop in H as (H1 & H2).
      apply b_map; intros v Hv; [apply IHk; now apply (proj1 (forallb_forall _ _) H1)|apply IHw; now apply (proj1 (forallb_forall _ _) H2)].
    + intros H. inversion H; subst. cbn [inner_validate]. apply andb_true_intro. split; apply forallb_forall; intros v Hv; [apply IHk|apply IHw]; auto.
Qed.

(** A value is accepted exactly if the type is valid and the value belongs to it. *)
Theorem C68_accepted_values : forall t v, validate_value t v = Ok tt <-> valid_type t /\ belongs t v.
Proof.
  intros t v. rewrite <- C68_valid_types, <- inner_validate_iff. unfold validate_value.
  destruct (validate t), (inner_validate t v), (fmt_panics v); cbn; split; intros H; try discriminate H; try (now split); try (now destruct H).
Qed.

(** Finding: a scale of 0, which the server's Decimal and DateTime64 types allow, is refused as
    "precision out of bounds": the type is read from the server, but no value can be inserted
    through [insert_native] into such a column.  (In the demonstration time zones are named by numbers.) *)
Theorem C68_scale_zero_refuted : forall v,
  parse_ty demo_uni demo_tz (txt "Decimal(9, 0)") = Ok (TDecimal32 0) /\ validate_value (TDecimal32 0) v = Err ETypeParse /\
  parse_ty demo_uni demo_tz (txt "DateTime64(0, '7')") = Ok (TDateTime64 0 7) /\ validate_value (TDateTime64 0 7) v = Err ETypeParse.
Proof. intros v. repeat split; try reflexivity; vm_compute; reflexivity. Qed.

Example C68_nonvacuous :
  valid_type (TMap (TLowCard (TNullable TString)) (TArray (TTuple [TDecimal64 18; TNullable (TInt I8)]))) /\
  belongs (TArray (TTuple [TDecimal64 18; TNullable (TInt I8)])) (VArray [VTuple [VDecimal64 18 5; VNull]; VTuple [VDecimal64 18 5; VUInt I8 1]]) /\
  ~ valid_type (TNullable (TArray TString)) /\ ~ valid_type (TDecimal32 10) /\ ~ belongs (TDecimal64 3) (VDecimal64 4 1).
Proof.
  repeat split.
  - apply C68_valid_types. reflexivity.
  - apply inner_validate_iff. reflexivity.
  - rewrite <- C68_valid_types. discriminate.
  - rewrite <- C68_valid_types. discriminate.
  - rewrite <- inner_validate_iff. discriminate.
Qed.
Print Assumptions C68_valid_types.
Print Assumptions C68_accepted_values.
Print Assumptions C68_scale_zero_refuted.

(** The default value of a type is zero, empty or NULL, and nothing else is. *)
Theorem C15_default_is : forall t v, is_default t v <-> v = default_value t.
Proof.
  intros t v. split.
  - revert v. induction t as [t L|t IH|t IH|ts IH|t IH|k w IHk IHw] using ty_ind_leaf; intros v D; inversion D; subst; try discriminate; try reflexivity.
    + cbn [default_value]. now apply IH.
    + cbn [default_value]. f_equal. match goal with F : Forall2 _ ts vs |- _ => revert F; clear D end. revert vs.
      induction IH as [|t ts I _ IH]; intros vs F; inversion F; subst; [reflexivity|]. cbn [map]. f_equal; [now apply I|now apply IH].
  - intros ->. induction t as [t L|t IH|t IH|ts IH|t IH|k w IHk IHw] using ty_ind_leaf; cbn [default_value]; try (constructor; fail).
    + destruct t; try discriminate L; constructor.
    + constructor. exact IH.
    + constructor. induction IH; cbn [map]; constructor; auto.
Qed.
Print Assumptions C15_default_is.
