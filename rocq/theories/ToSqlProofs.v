(** Proofs about what Rust values are sent as. *)
From Verif Require Import Base Io Types Ser Deser Utf8 RawRow ColumnSpec Convert Numeric ConvertSpec ConvertProofs ReadSpec ReadProofs ToSqlSpec.

Lemma element_hint_eq h : option_map strip_low_cardinality (obind h unarray) = element_hint h.
Proof. destruct h as [t|]; [destruct t|]; reflexivity. Qed.
Lemma component_hint_eq h i : obind (obind h untuple) (fun ts => nth_error ts i) = component_hint h i.
Proof. destruct h as [t|]; [destruct t|]; reflexivity. Qed.
Lemma key_hint_eq h : option_map fst (obind h unmap) = key_hint h.
Proof. destruct h as [t|]; [destruct t|]; reflexivity. Qed.
Lemma value_hint_eq h : option_map snd (obind h unmap) = value_hint h.
Proof. destruct h as [t|]; [destruct t|]; reflexivity. Qed.
Lemma some_hint_eq h : obind h unnull = some_hint h.
Proof. destruct h as [t|]; [destruct t|]; reflexivity. Qed.
Lemma byte_type_iff r : byte_rty r <-> exists s, byte_type r = Some s.
Proof.
  split.
  - intros [->| ->]; cbn [byte_type]; eauto.
  - intros (s & H). destruct r; try discriminate. destruct l; try discriminate; destruct w; try discriminate; [now right|now left].
Qed.
Lemma bits_byte x b : bits_of x b -> byte_of_rval x = b.
Proof. intros H. destruct H; reflexivity. Qed.

(** The two branches of [Vec::to_sql]. *)
Lemma vec_branch (r : rty) (h : option ty) (P : res value -> Prop) (A B : res value) :
  (byte_rty r -> strings_hint h -> P A) -> (~ (byte_rty r /\ strings_hint h) -> P B) ->
  P (match element_hint h, byte_type r with Some TString, Some _ | Some (TFixedString _), Some _ => A | _, _ => B end).
Proof.
  intros HA HB.
  assert (NB : byte_type r = None -> P B) by (intros E; apply HB; intros [C _]; apply byte_type_iff in C as (s & C); congruence).
  assert (NS : ~ strings_hint h -> P B) by (intros E; apply HB; tauto).
  destruct (element_hint h) as [t|] eqn:E.
  - destruct t; try (apply NS; intros (t' & T & [S|[n S]]); subst; rewrite E in T; discriminate T);
      (destruct (byte_type r) eqn:Q; [|apply NB, eq_refl]); (apply HA; [apply byte_type_iff; eauto|]); eexists; (split; [exact E|]); [now left|right; eauto].
  - apply NS. intros (t' & T & _). congruence.
Qed.

Theorem to_sql_sent r : forall x h v, bytes_are_bytes r x -> to_sql r x h = Ok v -> sent r h x v.
Proof.
  induction r as [l| | | | | | |r IH|n r IH|r IH|r IH|r IH|rs IH|rk rv IHk IHv|ua uf ug] using rty_nested_ind; intros x h v B H; cbn [to_sql] in H.
  - destruct x; try discriminate. injection H as <-. constructor.
  - destruct x; try discriminate. injection H as <-. destruct b; constructor.
  - destruct x; try discriminate. injection H as <-. constructor.
  - destruct x; try discriminate. injection H as <-. destruct h as [t|]; [|constructor; discriminate].
    destruct t; try (constructor; discriminate). destruct t; try (constructor; discriminate); destruct w; try (constructor; discriminate).
  - destruct x; try discriminate. injection H as <-. constructor.
  - destruct x; try discriminate. now constructor.
  - destruct x; try discriminate. now constructor.
  - destruct x as [| | | | | | |l| | |]; try discriminate. cbv zeta in H. rewrite element_hint_eq in H. cbn [bytes_are_bytes] in B. destruct B as [B1 B2]. revert H.
    apply (vec_branch r h (fun e => e = Ok v -> sent (RVec r) h (XList l) v)).
    + intros R S H. injection H as <-. apply sn_vec_bytes; [exact R|exact S|]. specialize (B1 R). clear -B1.
      induction B1 as [|y l (b & Y) _ IHl]; cbn [map]; constructor; [|exact IHl]. now rewrite (bits_byte _ _ Y).
    + intros NB H. ok_inv H. injection H as <-. apply sn_vec; [exact NB|]. apply mapM_Forall2 in E. revert E. apply Forall2_impl_in. intros y w I. apply IH.
      exact (proj1 (Forall_forall _ _) B2 y I).
  - destruct x as [| | | | | | |l| | |]; try discriminate. cbv zeta in H. rewrite element_hint_eq in H. cbn [bytes_are_bytes] in B.
    ok_inv H. injection H as <-. apply sn_arr. apply mapM_Forall2 in E. revert E. apply Forall2_impl_in. intros y w I. apply IH.
    exact (proj1 (Forall_forall _ _) B y I).
  - destruct x as [| | | | | | |l| | |]; try discriminate. cbn [bytes_are_bytes] in B. ok_inv H. injection H as <-. apply sn_vec_tuple.
    revert B a E. generalize O. induction l as [|y l IHl]; intros i B a E.
    + injection E as <-. constructor.
    + rewrite component_hint_eq in E. ok_inv E. ok_inv E. injection E as <-. inversion B; subst. cbn [length repeat].
      constructor; [now apply IH|]. apply IHl; [assumption|exact E1].
  - destruct x as [| | | | | | | |o| |]; try discriminate. destruct o as [y|]; [|injection H as <-; constructor].
    rewrite some_hint_eq in H. constructor. now apply IH.
  - constructor. apply IH; [exact B|exact H].
  - destruct x as [| | | | | | | | |l|]; try discriminate. cbn [bytes_are_bytes] in B. ok_inv H. injection H as <-. apply sn_tuple.
    revert l B a E. generalize O. induction rs as [|r rs IHrs]; intros i l B a E; destruct l as [|y l]; try discriminate.
    + injection E as <-. constructor.
    + rewrite component_hint_eq in E. ok_inv E. ok_inv E. injection E as <-. inversion IH as [|? ? I1 I2]; subst. destruct B as [B1 B2].
      constructor; [now apply I1|]. apply (IHrs I2); [exact B2|exact E1].
  - destruct x as [| | | | | | | | | |l]; try discriminate. cbv zeta in H. rewrite key_hint_eq, value_hint_eq in H. cbn [bytes_are_bytes] in B. ok_inv H. injection H as <-.
    assert (G : Forall2 (sent rk (key_hint h)) (map fst l) (map fst a) /\ Forall2 (sent rv (value_hint h)) (map snd l) (map snd a)).
    { revert B a E. induction l as [|[k w] l IHl]; intros B a E; cbn [mapM] in E.
      - injection E as <-. split; constructor.
      - cbn [fst snd] in E. ok_inv E. ok_inv E0. ok_inv E0. injection E0 as <-. ok_inv E. injection E as <-. inversion B as [|? ? [B1 B2] B3]; subst.
        destruct (IHl B3 _ eq_refl) as [G1 G2]. split; cbn [map fst snd]; constructor; auto. }
    destruct G. now constructor.
  - constructor. destruct x; exact H.
Qed.

Theorem sent_to_sql r : forall x h v, sent r h x v -> to_sql r x h = Ok v.
Proof.
  induction r as [l| | | | | | |r IH|n r IH|r IH|r IH|r IH|rs IH|rk rv IHk IHv|ua uf ug] using rty_nested_ind; intros x h v H; inversion H; subst; cbn [to_sql]; cbv zeta;
    try reflexivity; try assumption; try (destruct x; assumption).
  - destruct h as [t|]; [|reflexivity]. destruct t; try reflexivity. destruct t; try reflexivity; destruct w; try reflexivity; contradiction.
  - rewrite element_hint_eq. apply (vec_branch r h (fun e => e = Ok (VArray vs))); [tauto|]. intros _.
    rewrite (mapM_id _ l vs); [reflexivity|]. match goal with F : Forall2 _ l vs |- _ => revert F end. apply Forall2_impl_in. intros y w _. apply IH.
  - rewrite element_hint_eq. apply (vec_branch r h (fun e => e = Ok (VString bs))); [|tauto]. intros _ _. f_equal. f_equal.
    match goal with F : Forall2 bits_of l bs |- _ => clear -F; induction F as [|y b l bs P _ IHf]; [reflexivity|] end. cbn [map]. now rewrite (bits_byte _ _ P), IHf.
  - rewrite element_hint_eq. rewrite (mapM_id _ l vs); [reflexivity|]. match goal with F : Forall2 _ l vs |- _ => revert F end. apply Forall2_impl_in. intros y w _. apply IH.
  - match goal with F : sent_from _ _ _ _ _ |- _ => rename F into F0 end. clear H.
    match goal with |- rbind ?e _ = _ => assert (E : e = Ok vs) end; [|now rewrite E].
    revert vs F0. generalize O. induction l as [|y l IHl]; intros i vs F; inversion F; subst; [reflexivity|].
    rewrite component_hint_eq. match goal with S : sent r _ y _ |- _ => rewrite (IH _ _ _ S) end. cbn [rbind].
    match goal with S : sent_from _ _ _ l _ |- _ => now rewrite (IHl _ _ S) end.
  - rewrite some_hint_eq. now apply IH.
  - now apply IH.
  - match goal with F : sent_from _ _ _ _ _ |- _ => rename F into F0 end. clear H.
    match goal with |- rbind ?e _ = _ => assert (E : e = Ok vs) end; [|now rewrite E].
    revert l vs F0. generalize O. induction rs as [|r rs IHrs]; intros i l vs F; inversion F; subst; [reflexivity|]. inversion IH as [|? ? I1 I2]; subst.
    rewrite component_hint_eq. match goal with S : sent r _ _ _ |- _ => rewrite (I1 _ _ _ S) end. cbn [rbind].
    match goal with S : sent_from _ rs _ _ _ |- _ => now rewrite (IHrs I2 _ _ _ S) end.
  - rewrite key_hint_eq, value_hint_eq.
    assert (G : mapM (fun kv => k <- to_sql rk (fst kv) (key_hint h) ;; v <- to_sql rv (snd kv) (value_hint h) ;; Ok (k, v)) l = Ok (combine ks vs) /\ length ks = length vs).
    { clear H. match goal with F : Forall2 _ (map fst l) ks |- _ => revert F end. match goal with F : Forall2 _ (map snd l) vs |- _ => revert F end.
      revert ks vs. induction l as [|[k w] l IHl]; intros ks vs F2 F1; inversion F1; inversion F2; subst; [split; reflexivity|].
      cbn [mapM fst snd] in *. match goal with S : Forall2 _ (map fst l) ?k, S' : Forall2 _ (map snd l) ?w |- _ => destruct (IHl _ _ S' S) as [G L] end.
      match goal with S : sent rk _ _ _ |- _ => rewrite (IHk _ _ _ S) end. cbn [rbind].
      match goal with S : sent rv _ _ _ |- _ => rewrite (IHv _ _ _ S) end. cbn [rbind]. rewrite G. cbn [rbind combine length]. split; [reflexivity|]. now rewrite L. }
    destruct G as [G L]. rewrite G. cbn [rbind]. f_equal. f_equal.
    + clear -L. revert vs L. induction ks as [|k ks IHk]; intros [|v vs] L; try discriminate; [reflexivity|]. cbn [combine map fst]. f_equal. apply IHk. now injection L.
    + clear -L. revert vs L. induction ks as [|k ks IHk]; intros [|v vs] L; try discriminate; [reflexivity|]. cbn [combine map snd]. f_equal. apply IHk. now injection L.
Qed.
