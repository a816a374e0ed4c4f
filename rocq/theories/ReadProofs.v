(** Proofs about reading values into Rust types. *)
From Verif Require Import Base Io Types Ser Deser Utf8 RawRow ColumnSpec Convert Numeric ConvertSpec ConvertProofs ReadSpec.

Lemma leaf_reads_iff l t v w : leaf_reads l t v w <-> leaf_type l t = true /\ leaf_content l v = Some w.
Proof.
  split.
  - intros H. destruct H; cbn [leaf_type leaf_content]; try (split; reflexivity);
      try (split; [apply N.eqb_refl|reflexivity]); destruct w; split; reflexivity.
  - intros [A B]. destruct l; destruct t; cbn [leaf_type] in A; try discriminate; destruct v; cbn [leaf_content] in B; try discriminate;
      try (apply N.eqb_eq in A; subst); try (apply iw_eqb_eq in A; subst);
      try (match type of B with (if iw_eqb ?a ?b then _ else _) = _ => destruct (iw_eqb a b) eqn:E; [apply iw_eqb_eq in E; subst|discriminate] end);
      injection B as <-; constructor.
Qed.

Lemma signed_byte_s2u z : (-128 <= z < 128)%Z -> s2u 8 z < 256 /\ signed_byte (s2u 8 z) z.
Proof.
  intros B. unfold s2u, signed_byte. change (2 ^ Z.of_N 8)%Z with 256%Z.
  assert (0 <= z mod 256 < 256)%Z by (apply Z.mod_pos_bound; lia).
  rewrite Z2N.id by lia. split; [lia|]. split; [exact B|].
  destruct (Z_lt_le_dec z 0).
  - right. rewrite <- (Z.mod_unique z 256 (-1) (z + 256)); lia.
  - left. rewrite Z.mod_small; lia.
Qed.
Lemma signed_byte_eq b z : b < 256 -> signed_byte b z -> s2u 8 z = b.
Proof.
  intros B [S E]. unfold s2u. change (2 ^ Z.of_N 8)%Z with 256%Z.
  destruct E as [->| ->].
  - rewrite Z.mod_small; lia.
  - rewrite <- (Z.mod_unique (Z.of_N b - 256) 256 (-1) (Z.of_N b)); lia.
Qed.
Lemma signed_byte_u2s b : b < 256 -> signed_byte b (u2s 8 b).
Proof.
  intros B. unfold u2s, signed_byte. change (2 ^ (8 - 1)) with 128. change (2 ^ Z.of_N 8)%Z with 256%Z.
  destruct (N.ltb_spec b 128); lia.
Qed.
Lemma signed_byte_fun b z : b < 256 -> signed_byte b z -> u2s 8 b = z.
Proof.
  intros B [S E]. unfold u2s. change (2 ^ (8 - 1)) with 128. change (2 ^ Z.of_N 8)%Z with 256%Z.
  destruct (N.ltb_spec b 128); lia.
Qed.

Lemma mapM_Forall2 {A B} (f : A -> res B) l m : mapM f l = Ok m <-> Forall2 (fun a b => f a = Ok b) l m.
Proof.
  split; [|apply mapM_id]. revert m. induction l as [|a l IH]; intros m H; cbn [mapM] in H.
  - injection H as <-. constructor.
  - destruct (f a) as [b| |] eqn:E; cbn [rbind] in H; try discriminate.
    destruct (mapM f l) as [m'| |] eqn:E'; cbn [rbind] in H; try discriminate. injection H as <-. constructor; auto.
Qed.

Lemma Forall2_impl_in {A B} (P Q : A -> B -> Prop) l m :
  (forall a b, In a l -> P a b -> Q a b) -> Forall2 P l m -> Forall2 Q l m.
Proof.
  intros H F. revert H. induction F as [|a b l m p F IH]; intros H; constructor.
  - apply H; [now left|exact p].
  - apply IH. intros a' b' I. apply H. now right.
Qed.
Lemma Forall2_ok {A B} (f : A -> res B) (P : A -> B -> Prop) (c : bool) l m :
  (forall a b, In a l -> P a b -> exists b', f a = Ok b' /\ (c = true -> b' = b)) -> Forall2 P l m ->
  exists m', mapM f l = Ok m' /\ (c = true -> m' = m).
Proof.
  intros H F. revert H. induction F as [|a b l m p F IH]; intros H.
  - exists []. auto.
  - destruct (H a b (or_introl eq_refl) p) as (b' & E & D).
    destruct IH as (m' & E' & D'). { intros a' b'' I. apply H. now right. }
    exists (b' :: m'). cbn [mapM]. rewrite E, E'. split; [reflexivity|]. intros C. now rewrite (D C), (D' C).
Qed.

(* ---------------- maps ---------------- *)
Lemma insert_keys k v m k' : In k' (map fst (rmap_insert k v m)) <-> k' = k \/ In k' (map fst m).
Proof.
  induction m as [|[k0 v0] m IH]; cbn [rmap_insert map fst In]; [intuition|].
  destruct (rval_eq_dec k k0) as [->|NE]; cbn [map fst In].
  - intuition.
  - rewrite IH. intuition.
Qed.
Lemma insert_nodup k v m : NoDup (map fst m) -> NoDup (map fst (rmap_insert k v m)).
Proof.
  induction m as [|[k0 v0] m IH]; cbn [rmap_insert map fst]; intros H.
  - constructor; [tauto|constructor].
  - destruct (rval_eq_dec k k0) as [->|NE]; cbn [map fst]; [exact H|]. inversion H as [|? ? N D]; subst.
    constructor; [|now apply IH]. rewrite insert_keys. intros [E|I]; [now apply NE|now apply N].
Qed.
Lemma insert_in k v m k' w : NoDup (map fst m) ->
  (In (k', w) (rmap_insert k v m) <-> (k' = k /\ w = v) \/ (k' <> k /\ In (k', w) m)).
Proof.
  induction m as [|[k0 v0] m IH]; cbn [rmap_insert map fst]; intros H.
  - cbn [In]. split.
    + intros [[= <- <-]|[]]. now left.
    + intros [[-> ->]|[_ []]]. now left.
  - inversion H as [|? ? N D]; subst. destruct (rval_eq_dec k k0) as [->|NE]; cbn [In].
    + split.
      * intros [[= <- <-]|I]; [now left|]. right. split; [|now right]. intros ->. apply N. now apply (in_map fst) in I.
      * intros [[-> ->]|[NE [[= -> ->]|I]]]; [now left|now elim NE|now right].
    + rewrite (IH D). split.
      * intros [[= -> ->]|[[-> ->]|[NE' I]]]; [|now left|].
        -- right. split; [intros ->; now apply NE|now left].
        -- right. split; [exact NE'|now right].
      * intros [[-> ->]|[NE' [[= -> ->]|I]]]; [right; now left|now left|]. right. right. now split.
Qed.

Definition ins := fun (m : list (rval * rval)) (kv : rval * rval) => rmap_insert (fst kv) (snd kv) m.
Lemma fold_last kvs : last_values kvs (fold_left ins kvs []).
Proof.
  induction kvs as [|[k v] kvs IH] using rev_ind.
  - split; [constructor|]. intros k w. split; [intros []|]. intros (l1 & l2 & E & _). destruct l1; discriminate.
  - rewrite fold_left_app. cbn [fold_left]. change (ins ?m (k, v)) with (rmap_insert k v m). destruct IH as [D L].
    split; [now apply insert_nodup|]. intros k' w. rewrite (insert_in _ _ _ _ _ D). split.
    + intros [[-> ->]|[NE I]]; [exists kvs, []; cbn [map]; tauto|].
      apply L in I as (l1 & l2 & -> & N). exists l1, (l2 ++ [(k, v)]). rewrite <- app_assoc. split; [reflexivity|].
      rewrite map_app, in_app_iff. cbn [map fst In]. intros [I|[E|[]]]; [now apply N|now apply NE].
    + intros (l1 & l2 & E & N). destruct l2 as [|p l2 _] using rev_ind.
      * apply app_inj_tail in E as [-> [= <- <-]]. now left.
      * rewrite app_comm_cons, app_assoc in E. apply app_inj_tail in E as [E <-]. rewrite map_app, in_app_iff in N. cbn [map fst In] in N.
        right. split; [intros ->; apply N; right; now left|]. apply L. exists l1, l2. split; [exact E|]. intros I. apply N. now left.
Qed.

(* ---------------- soundness ---------------- *)
Lemma repr_in l v : forallb representable l = true -> In v l -> representable v = true.
Proof. intros F I. exact (proj1 (forallb_forall _ _) F v I). Qed.

Lemma bytes_element_ok l bs : forallb representable l = true -> mapM byte_from_value l = Ok bs -> Forall2 byte_element l bs.
Proof.
  intros R H. apply mapM_Forall2 in H. revert H. apply Forall2_impl_in. intros v b I E. pose proof (repr_in _ _ R I) as Rv.
  assert (NG : forall a, match guess_type a with Panic => Panic | _ => Err EDeser end = Ok b -> False) by (intros a; destruct (guess_type a); discriminate).
  destruct v; cbn [byte_from_value] in E; try (now apply NG in E); destruct w; try (now apply NG in E).
  - injection E as <-. cbn [representable] in Rv. unfold signedb in Rv. cbn [ibits] in Rv.
    assert (B : (-128 <= x < 128)%Z) by (change (2 ^ Z.of_N (ibits I8 - 1))%Z with 128%Z in Rv; lia).
    destruct (signed_byte_s2u x B). now constructor.
  - injection E as <-. constructor.
Qed.
Lemma bytes_element_back l bs : Forall2 byte_element l bs -> mapM byte_from_value l = Ok bs.
Proof.
  intros H. apply mapM_id. revert H. apply Forall2_impl_in. intros v b _ E. destruct E as [n|z b B S]; cbn [byte_from_value]; [reflexivity|].
  f_equal. now apply signed_byte_eq.
Qed.

Ltac ok_inv H := let E := fresh "E" in
  match type of H with rbind ?e _ = Ok _ => destruct e eqn:E; cbn [rbind] in H; [|discriminate H|discriminate H] end.

Theorem from_sql_reads r : forall t v x, representable v = true -> from_sql r t v = Ok x -> reads r t v x.
Proof.
  induction r as [l| | | | | | |r IH|n r IH|r IH|r IH|r IH|rs IH|rk rv IHk IHv|ua uf ug] using rty_nested_ind; intros t v x R H; cbn [from_sql] in H.
  - destruct (leaf_type l t) eqn:A; [|discriminate]. destruct (leaf_content l v) eqn:B; [|discriminate]. injection H as <-.
    apply rd_leaf. apply leaf_reads_iff. now split.
  - destruct t; try discriminate. destruct w; try discriminate. destruct v; try discriminate. destruct w; try discriminate.
    injection H as <-. constructor. destruct (N.eqb_spec x0 0); cbn [negb]; intuition congruence.
  - assert (T : string_type t) by (destruct t; try discriminate; [now left|right; eauto]).
    assert (E : rstring_from v = Ok x) by (destruct t; try discriminate; exact H). clear H. destruct v; try discriminate. cbn [rstring_from] in E.
    destruct (utf8_decode bs) as [s|] eqn:D; [|discriminate]. injection E as <-. cbn [representable] in R.
    apply utf8_decode_sound in D as [S <-].
    + now constructor.
    + apply Forall_forall. intros b I. pose proof (proj1 (forallb_forall _ _) R b I) as B. unfold byteb in B. unfold byte_ok. lia.
  - ok_inv H. injection H as <-. unfold bytes_from_sql in E. destruct t; try discriminate; try (destruct v; try discriminate; injection E as <-; constructor; (now left) || (right; eauto)).
    assert (T : byte_ty t) by (destruct t; try discriminate; destruct w; try discriminate; [now right|now left]).
    assert (E' : match v with VArray l => mapM byte_from_value l | _ => Panic end = Ok a) by (destruct t; try discriminate; destruct w; try discriminate; exact E).
    destruct v; try discriminate. constructor; [exact T|]. apply bytes_element_ok; [exact R|exact E'].
  - injection H as <-. constructor.
  - ok_inv H. injection H as <-. now constructor.
  - ok_inv H. injection H as <-. now constructor.
  - destruct t; try discriminate. destruct v; try discriminate.
    + assert (B : byte_ty (strip_low_cardinality t) /\ exists s, byte_type r = Some s /\ x = XList (map (rval_of_byte s) bs)).
      { destruct (strip_low_cardinality t); try discriminate; destruct w; try discriminate; (destruct (byte_type r) as [s|]; [|discriminate]);
          injection H as <-; (split; [(now left) || (now right)|eauto]). }
      destruct B as (B & s & Q & ->). cbn [representable] in R.
      assert (Q' : r = RLeaf (LUInt I8) /\ s = false \/ r = RLeaf (LInt I8) /\ s = true).
      { destruct r; try discriminate. destruct l; try discriminate; destruct w; try discriminate; injection Q as <-; tauto. }
      apply rd_vec_string; [exact B| |destruct Q' as [[-> _]|[-> _]]; tauto].
      clear -R Q'. induction bs as [|b bs IHb]; cbn [map]; constructor.
      * cbn [forallb] in R. apply andb_prop in R as [Rb _]. unfold byteb in Rb.
        destruct Q' as [[-> ->]|[-> ->]]; cbn [rval_of_byte]; constructor. apply signed_byte_u2s. lia.
      * apply IHb. cbn [forallb] in R. now apply andb_prop in R.
    + ok_inv H. injection H as <-. constructor. apply mapM_Forall2 in E. revert E. apply Forall2_impl_in. intros v x I. apply IH.
      exact (repr_in _ _ R I).
  - destruct t; try discriminate. destruct v; try discriminate. destruct (N.eqb_spec (lenN l) n) as [L|]; [|discriminate].
    ok_inv H. injection H as <-. constructor; [exact L|]. apply mapM_Forall2 in E. revert E. apply Forall2_impl_in. intros v x I. apply IH.
    exact (repr_in _ _ R I).
  - destruct t; try discriminate. destruct v; try discriminate. destruct (N.eqb_spec (lenN l) (lenN ts)) as [L|]; [|discriminate].
    ok_inv H. injection H as <-. constructor. cbn [representable] in R. revert ts L R a E.
    induction l as [|v l IHl]; intros ts L R a E; destruct ts as [|t ts]; try (unfold lenN in L; cbn [length] in L; lia); cbn [combine mapM] in E.
    + injection E as <-. constructor.
    + cbn [fst snd] in E. ok_inv E. ok_inv E. injection E as <-. cbn [forallb] in R. apply andb_prop in R as [Rv Rl]. cbn [length repeat].
      constructor; [now apply IH|]. apply (IHl ts); [unfold lenN in L |- *; cbn [length] in L; lia|exact Rl|exact E1].
  - assert (V : v = VNull \/ v <> VNull) by (destruct v; (now left) || (right; discriminate)). destruct V as [->|V].
    + injection H as <-. constructor.
    + assert (H' : (x <- from_sql r (match t with TNullable x => strip_low_cardinality x | x => x end) v ;; Ok (XOpt (Some x))) = Ok x) by (destruct v; try exact H; now elim V).
      clear H. ok_inv H'. injection H' as <-. apply IH in E; [|exact R].
      destruct t; try (apply rd_some_plain; [exact V|discriminate|exact E]). now apply rd_some.
  - constructor. now apply IH.
  - destruct t; try discriminate. destruct v; try discriminate. destruct (N.eqb_spec (lenN l) (lenN ts)) as [L|]; [|discriminate]. cbn [negb] in H.
    destruct (N.eqb_spec (lenN l) (lenN rs)) as [L'|]; [|discriminate]. cbn [negb] in H. ok_inv H. injection H as <-. constructor. cbn [representable] in R.
    revert rs IH ts L L' R a E. induction l as [|v l IHl]; intros rs IH ts L L' R a E; destruct ts as [|t ts]; try (unfold lenN in L; cbn [length] in L; lia);
      destruct rs as [|r rs]; try (unfold lenN in L'; cbn [length] in L'; lia).
    + injection E as <-. constructor.
    + ok_inv E. ok_inv E. injection E as <-. cbn [forallb] in R. apply andb_prop in R as [Rv Rl]. inversion IH as [|? ? I1 I2]; subst. cbn [map].
      constructor; [now apply I1|]. apply (IHl rs I2 ts); [unfold lenN in L |- *; cbn [length] in L; lia|unfold lenN in L' |- *; cbn [length] in L'; lia|exact Rl|exact E1].
  - destruct t; try discriminate. destruct v; try discriminate. ok_inv H. injection H as <-. cbn [representable] in R. apply andb_prop in R as [Rk Rv].
    apply (rd_map _ _ _ _ _ _ a); [|apply fold_last].
    revert vs Rv a E. induction ks as [|k ks IHks]; intros vs Rv a E; cbn [combine mapM] in E.
    + injection E as <-. constructor.
    + destruct vs as [|v vs]; cbn [mapM] in E; [injection E as <-; constructor|]. cbn [fst snd] in E.
      cbn [forallb] in Rk, Rv. apply andb_prop in Rk as [Rk Rks]. apply andb_prop in Rv as [Rv Rvs].
      ok_inv E. ok_inv E0. ok_inv E0. injection E0 as <-. ok_inv E. injection E as <-.
      constructor; [now apply IHk|now apply IHv|]. apply (IHks Rks vs Rvs). exact E0.
  - now constructor.
Qed.

(* ---------------- completeness ---------------- *)
Theorem reads_from_sql r : forall t v x, representable v = true -> reads r t v x -> exists x', from_sql r t v = Ok x' /\ (no_map r = true -> x' = x).
Proof.
  induction r as [l| | | | | | |r IH|n r IH|r IH|r IH|r IH|rs IH|rk rv IHk IHv|ua uf ug] using rty_nested_ind; intros t v x R H; inversion H; subst; cbn [from_sql no_map].
  - match goal with L : leaf_reads _ _ _ _ |- _ => apply leaf_reads_iff in L as [-> ->] end. eauto.
  - eexists. split; [reflexivity|]. intros _. f_equal. destruct (N.eqb_spec n 0); destruct b; cbn [negb]; intuition congruence.
  - exists (XStr s). split; [|reflexivity]. match goal with S : string_type t |- _ => destruct S as [->|[k ->]] end; cbn [rstring_from]; now rewrite utf8_roundtrip.
  - exists (XBytes bs). split; [|reflexivity]. match goal with S : string_type t |- _ => destruct S as [->|[k ->]] end; reflexivity.
  - exists (XBytes bs). split; [|reflexivity]. match goal with B : Forall2 byte_element _ _ |- _ => apply bytes_element_back in B end.
    match goal with S : byte_ty _ |- _ => destruct S as [->| ->] end; cbn [bytes_from_sql]; match goal with B : mapM _ _ = Ok _ |- _ => now rewrite B end.
  - eauto.
  - match goal with D : dec_from_sql _ = _ |- _ => rewrite D end. cbn [rbind]. eauto.
  - match goal with D : chrono_from_sql _ _ = _ |- _ => rewrite D end. cbn [rbind]. eauto.
  - match goal with F : Forall2 (reads _ _) _ _ |- _ => destruct (Forall2_ok (from_sql r (strip_low_cardinality t0)) _ (no_map r) _ _ (fun a b I => IH _ a b (repr_in _ _ R I)) F) as (m' & -> & D) end.
    eexists. split; [reflexivity|]. intros C. now rewrite (D C).
  - assert (Q : exists s, byte_type r = Some s /\ xs = map (rval_of_byte s) bs).
    { match goal with Q : _ \/ _ |- _ => destruct Q as [->| ->] end; cbn [byte_type]; eexists; (split; [reflexivity|]);
        match goal with F : Forall2 (byte_item _) _ _ |- _ => cbn [representable] in R; clear -F R; induction F as [|b x l m p F IHf]; [reflexivity|] end;
        cbn [forallb] in R; apply andb_prop in R as [Rb Rl]; unfold byteb in Rb; cbn [map]; (f_equal; [|exact (IHf Rl)]); inversion p; subst; cbn [rval_of_byte]; [reflexivity|].
      f_equal. f_equal. symmetry. apply signed_byte_fun; [lia|assumption]. }
    destruct Q as (s & -> & ->). exists (XList (map (rval_of_byte s) bs)). split; [|reflexivity].
    match goal with S : byte_ty _ |- _ => destruct S as [->| ->] end; reflexivity.
  - rewrite N.eqb_refl. match goal with F : Forall2 (reads _ _) _ _ |- _ => destruct (Forall2_ok (from_sql r (strip_low_cardinality t0)) _ (no_map r) _ _ (fun a b I => IH _ a b (repr_in _ _ R I)) F) as (m' & -> & D) end.
    eexists. split; [reflexivity|]. intros C. now rewrite (D C).
  - match goal with F : read_each _ _ _ _ |- _ => rename F into F0 end. cbn [representable] in R. clear H.
    assert (L : lenN l = lenN ts /\ exists xs', mapM (fun tv => from_sql r (fst tv) (snd tv)) (combine ts l) = Ok xs' /\ (no_map r = true -> xs' = xs)).
    { revert ts xs F0 R. induction l as [|v l IHl]; intros ts xs F R; inversion F; subst.
      - split; [reflexivity|]. exists []. auto.
      - cbn [forallb] in R. apply andb_prop in R as [Rv Rl].
        match goal with F' : read_each _ _ l _ |- _ => destruct (IHl _ _ F' Rl) as (L & xs' & A & D) end.
        match goal with F' : reads _ _ v _ |- _ => destruct (IH _ _ _ Rv F') as (x' & B & D') end.
        split; [unfold lenN in *; cbn [length]; lia|]. exists (x' :: xs'). cbn [combine mapM fst snd]. rewrite B, A. split; [reflexivity|].
        intros C. now rewrite (D C), (D' C). }
    destruct L as (L & xs' & A & D). rewrite L, N.eqb_refl, A. eexists. split; [reflexivity|]. intros C. now rewrite (D C).
  - eauto.
  - match goal with F : reads r _ _ _ |- _ => destruct (IH _ _ _ R F) as (x' & B & D) end. exists (XOpt (Some x')). rewrite B.
    split; [|intros C; now rewrite (D C)]. destruct v; try reflexivity. contradiction.
  - match goal with F : reads r _ _ _ |- _ => destruct (IH _ _ _ R F) as (x' & B & D) end. exists (XOpt (Some x')).
    assert (E : match t with TNullable x => strip_low_cardinality x | x => x end = t) by (destruct t; try reflexivity; match goal with N : forall t', _ <> _ |- _ => now elim (N t) end).
    rewrite E, B. split; [|intros C; now rewrite (D C)]. destruct v; try reflexivity. contradiction.
  - match goal with F : reads r _ _ _ |- _ => exact (IH _ _ _ R F) end.
  - match goal with F : read_each _ _ _ _ |- _ => rename F into F0 end. cbn [representable] in R. clear H.
    assert (L : lenN l = lenN ts /\ lenN l = lenN rs /\ exists xs', (fix go rs ts vs := match rs, ts, vs with
                          | r1 :: rs', t1 :: ts', v1 :: vs' =>
                              x <- from_sql r1 (strip_low_cardinality t1) v1 ;; xs <- go rs' ts' vs' ;; Ok (x :: xs)
                          | _, _, _ => Ok []
                          end) rs ts l = Ok xs' /\ (forallb no_map rs = true -> xs' = xs)).
    { revert ts rs IH xs F0 R. induction l as [|v l IHl]; intros ts rs IH xs F R; inversion F; subst.
      - destruct ts as [|t' ts']; [|discriminate]. split; [reflexivity|]. split; [reflexivity|]. exists []. auto.
      - cbn [forallb] in R. apply andb_prop in R as [Rv Rl]. destruct ts as [|t' ts']; [discriminate|]. cbn [map] in *.
        match goal with E : _ :: _ = _ :: _ |- _ => injection E as ? ?; subst end.
        inversion IH as [|? ? I1 I2]; subst.
        match goal with F' : read_each _ _ l _ |- _ => destruct (IHl _ _ I2 _ F' Rl) as (L & L' & xs' & A & D) end.
        match goal with F' : reads _ _ v _ |- _ => destruct (I1 _ _ _ Rv F') as (x' & B & D') end.
        split; [unfold lenN in *; cbn [length]; lia|]. split; [unfold lenN in *; cbn [length]; lia|]. exists (x' :: xs'). rewrite B. cbn [rbind]. rewrite A. split; [reflexivity|].
        cbn [forallb]. intros C. apply andb_prop in C as [C1 C2]. now rewrite (D C2), (D' C1). }
    destruct L as (L & L' & xs' & A & D). rewrite <- L, <- L', N.eqb_refl. cbn [negb]. rewrite A. eexists. split; [reflexivity|]. intros C. now rewrite (D C).
  - match goal with F : read_entries _ _ _ _ _ _ _ |- _ => rename F into F0 end. cbn [representable] in R. apply andb_prop in R as [Rk Rv]. clear H.
    match goal with L : last_values _ _ |- _ => clear L end.
    assert (L : exists kvs', mapM (fun p => k <- from_sql rk (strip_low_cardinality tk) (fst p) ;;
                                    w <- from_sql rv (strip_low_cardinality tv) (snd p) ;; Ok (k, w)) (combine ks vs) = Ok kvs').
    { revert vs kvs F0 Rv. induction ks as [|k ks IHks]; intros vs kvs F Rv; [exists []; reflexivity|].
      destruct vs as [|v vs]; [exists []; reflexivity|]. inversion F; subst.
      cbn [forallb] in Rk, Rv. apply andb_prop in Rk as [Rk Rks]. apply andb_prop in Rv as [Rv Rvs].
      match goal with F' : read_entries _ _ _ _ ks vs _ |- _ => destruct (IHks Rks _ _ F' Rvs) as (kvs' & A) end.
      match goal with F' : reads rk _ _ _ |- _ => destruct (IHk _ _ _ Rk F') as (x' & B & _) end.
      match goal with F' : reads rv _ _ _ |- _ => destruct (IHv _ _ _ Rv F') as (y' & B' & _) end.
      exists ((x', y') :: kvs'). cbn [combine mapM fst snd]. rewrite B, B'. cbn [rbind]. now rewrite A. }
    destruct L as (kvs' & ->). eexists. split; [reflexivity|]. discriminate.
  - eauto.
Qed.
