(** Proofs about conversions between Rust values and SQL values. *)
From Verif Require Import Base Io Types Ser Deser Text Utf8 RawRow Numeric NumericSpec NumericProofs ColumnSpec Convert ConvertSpec.

Section RtyInd.
  Variable P : rty -> Prop.
  Hypothesis HLeaf : forall l, P (RLeaf l).
  Hypothesis HBool : P RBool.
  Hypothesis HString : P RString.
  Hypothesis HBytes : P RBytes.
  Hypothesis HValue : P RValue.
  Hypothesis HDecimal : P RDecimal.
  Hypothesis HChrono : P RChrono.
  Hypothesis HVec : forall r, P r -> P (RVec r).
  Hypothesis HArr : forall n r, P r -> P (RArr n r).
  Hypothesis HVecTuple : forall r, P r -> P (RVecTuple r).
  Hypothesis HOpt : forall r, P r -> P (ROpt r).
  Hypothesis HBox : forall r, P r -> P (RBox r).
  Hypothesis HTuple : forall rs, Forall P rs -> P (RTuple rs).
  Hypothesis HMap : forall k v, P k -> P v -> P (RMap k v).
  Hypothesis HUser : forall a f g, P (RUser a f g).
  Fixpoint rty_nested_ind (r : rty) : P r :=
    match r with
    | RLeaf l => HLeaf l | RBool => HBool | RString => HString | RBytes => HBytes | RValue => HValue
    | RDecimal => HDecimal | RChrono => HChrono
    | RVec r => HVec r (rty_nested_ind r) | RArr n r => HArr n r (rty_nested_ind r)
    | RVecTuple r => HVecTuple r (rty_nested_ind r) | ROpt r => HOpt r (rty_nested_ind r) | RBox r => HBox r (rty_nested_ind r)
    | RTuple rs => HTuple rs ((fix go l : Forall P l :=
        match l with [] => Forall_nil _ | x :: r => Forall_cons _ (rty_nested_ind x) (go r) end) rs)
    | RMap k v => HMap k v (rty_nested_ind k) (rty_nested_ind v)
    | RUser a f g => HUser a f g
    end.
End RtyInd.

(* ---------------- hints ---------------- *)

Lemma validate_strip t : validate t = true -> validate (strip_low_cardinality t) = true.
Proof. destruct t; cbn [strip_low_cardinality]; try (intros H; exact H). cbn [validate]. intros H. now apply andb_prop in H. Qed.
Lemma hint_strip t : validate t = true -> hint_for (Some t) (strip_low_cardinality t).
Proof.
  intros V. destruct t; try (left; reflexivity). cbn [strip_low_cardinality]. cbn [validate] in V. apply andb_prop in V as [L _].
  right. split; [exact L|now left].
Qed.
Lemma inner_validate_strip t v : inner_validate (strip_low_cardinality t) v = inner_validate t v.
Proof. destruct t; reflexivity. Qed.

Lemma mapM_map {A B C} (f : B -> res C) (g : A -> B) l : mapM f (map g l) = mapM (fun x => f (g x)) l.
Proof. induction l as [|x l IH]; [reflexivity|]. cbn [map mapM]. now rewrite IH. Qed.
Lemma mapM_id {A B} (f : A -> res B) l m : Forall2 (fun a b => f a = Ok b) l m -> mapM f l = Ok m.
Proof. induction 1 as [|a b l m H _ IH]; [reflexivity|]. cbn [mapM]. now rewrite H, IH. Qed.

Lemma iw_eqb_eq a b : iw_eqb a b = true <-> a = b.
Proof. destruct a, b; cbn [iw_eqb]; split; congruence. Qed.

(* ---------------- leaves ---------------- *)

Lemma leaf_roundtrip l t v : leaf_type l t = true -> leaf_content l v = Some v -> zone_ok t v ->
  inner_validate t v = true /\ is_null v = false.
Proof.
  intros T C Z.
  destruct l, t; cbn [leaf_type] in T; try discriminate; destruct v; cbn [leaf_content] in C; try discriminate;
    cbn [inner_validate zone_ok is_null] in *; (split; [|reflexivity]); try reflexivity;
    try (destruct w, w0, w1; try discriminate; reflexivity);
    try (injection C as ->; exact T).
  - subst. apply N.eqb_refl.
  - injection C as ->. subst z0. now rewrite N.eqb_refl, T.
Qed.

(* ---------------- byte strings ---------------- *)

Lemma bytes_roundtrip bs t h : Forall (fun b => b < 256) bs -> stores RBytes t = true -> hint_for h t ->
  inner_validate t (bytes_to_sql bs h) = true /\ is_null (bytes_to_sql bs h) = false /\ bytes_from_sql t (bytes_to_sql bs h) = Ok bs.
Proof.
  intros B S H. destruct t; cbn [stores] in S; try discriminate.
  - assert (E : bytes_to_sql bs h = VString bs) by (destruct H as [->|[_ [->| ->]]]; reflexivity). rewrite E. auto.
  - assert (E : bytes_to_sql bs h = VString bs) by (destruct H as [->|[_ [->| ->]]]; reflexivity). rewrite E. auto.
  - destruct H as [->|[L _]]; [|discriminate]. destruct t; try discriminate; destruct w; try discriminate; cbn [bytes_to_sql inner_validate is_null bytes_from_sql].
    + split; [|split; [reflexivity|]].
      * apply forallb_forall. intros v I. apply in_map_iff in I as (b & <- & _). reflexivity.
      * rewrite mapM_map. apply mapM_id. clear -B. induction B as [|b bs Hb _ IH]; constructor; [|exact IH].
        cbn [byte_from_value]. f_equal. apply s2u_u2s; [lia|exact Hb].
    + split; [|split; [reflexivity|]].
      * apply forallb_forall. intros v I. apply in_map_iff in I as (b & <- & _). reflexivity.
      * rewrite mapM_map. apply mapM_id. clear. induction bs as [|b bs IH]; constructor; [reflexivity|exact IH].
Qed.

(* ---------------- maps ---------------- *)

Lemma rmap_insert_new k v m : ~ In k (map fst m) -> rmap_insert k v m = m ++ [(k, v)].
Proof.
  induction m as [|[k' v'] m IH]; intros H; cbn [rmap_insert app]; [reflexivity|]. cbn [map fst In] in H.
  destruct (rval_eq_dec k k') as [->|NE]; [exfalso; apply H; now left|]. f_equal. apply IH. intros I. apply H. now right.
Qed.
Lemma rmap_fold l : forall acc, NoDup (map fst (acc ++ l)) ->
  fold_left (fun m kv => rmap_insert (fst kv) (snd kv) m) l acc = acc ++ l.
Proof.
  induction l as [|[k v] l IH]; intros acc H; cbn [fold_left fst snd]; [now rewrite app_nil_r|].
  rewrite rmap_insert_new.
  - rewrite IH; [now rewrite <- app_assoc|]. now rewrite <- app_assoc.
  - rewrite map_app in H. cbn [map fst] in H. apply NoDup_remove_2 in H. intros I. apply H. apply in_or_app. now left.
Qed.

(* ---------------- decimals and instants ---------------- *)

Lemma decimal_roundtrip d t h w p : validate t = true -> dec_ok d -> decimal_type t = Some (w, p) -> d_scale d = p -> in_signed w (d_mantissa d) ->
  hint_for h t -> exists v, dec_to_sql d h = Ok v /\ inner_validate t v = true /\ is_null v = false /\ dec_from_sql v = Ok d.
Proof.
  intros V [M S] T D B H.
  assert (H' : h = Some t) by (destruct H as [H|[L _]]; [exact H|]; destruct t; discriminate). subst h. clear H.
  destruct d as [m s]. cbn [d_mantissa d_scale] in *. subst s.
  assert (P : p < 2 ^ 32) by lia.
  assert (Q : dec_try m (p mod 2 ^ 32) = Ok {| d_mantissa := m; d_scale := p |}).
  { rewrite N.mod_small by exact P. unfold dec_try. replace ((p <=? 28) && (Z.abs m <? 2 ^ 96)%Z) with true by lia. reflexivity. }
  destruct t; try discriminate; cbn [decimal_type] in T; injection T as <- ->; cbn [dec_to_sql d_scale d_mantissa];
    rewrite N.mod_small, N.leb_refl by exact P; unfold mantissa_to_scale; rewrite N.ltb_irrefl, N.eqb_refl; cbn [rbind].
  - unfold to_signed. unfold in_signed in B.
    change (Z.of_N (32 - 1)) with (32 - 1)%Z in B. clear V.
    replace ((- 2 ^ (32 - 1) <=? m) && (m <? 2 ^ (32 - 1)))%Z with true by lia. cbn [rbind].
    eexists. split; [reflexivity|]. cbn [inner_validate is_null dec_from_sql]. rewrite N.eqb_refl. auto.
  - unfold to_signed. unfold in_signed in B.
    change (Z.of_N (64 - 1)) with (64 - 1)%Z in B. clear V.
    replace ((- 2 ^ (64 - 1) <=? m) && (m <? 2 ^ (64 - 1)))%Z with true by lia. cbn [rbind].
    eexists. split; [reflexivity|]. cbn [inner_validate is_null dec_from_sql]. rewrite N.eqb_refl. auto.
  - eexists. split; [reflexivity|]. cbn [inner_validate is_null dec_from_sql]. rewrite N.eqb_refl. auto.
Qed.

Lemma instant_roundtrip i z : i_zone i = z -> (0 <= i_secs i <= Z.of_N CHRONO_MAX_SECS)%Z -> i_nanos i < 10 ^ 9 -> i_nanos i mod 1000 = 0 ->
  exists v, chrono_to_sql i = Ok v /\ inner_validate (TDateTime64 6 z) v = true /\ is_null v = false /\ chrono_from_sql (TDateTime64 6 z) v = Ok i.
Proof.
  intros Z S NB M.
  assert (X : exists x, chrono_to_sql i = Ok (VDateTime64 (i_zone i) x 6)).
  { unfold chrono_to_sql. generalize (i_nanos i / 1000). intros k. replace (i_secs i * 1000000 + Z.of_N k <? 0)%Z with false by lia. eauto. }
  destruct X as [x X]. exists (VDateTime64 (i_zone i) x 6). split; [exact X|]. rewrite (chrono_sql_roundtrip z 6 i _ S NB X).
  cbn [inner_validate is_null]. subst z. rewrite !N.eqb_refl, M, N.sub_0_r. destruct i. auto.
Qed.

(* ---------------- the round trip ---------------- *)

Definition goes_round (r : rty) : Prop := forall t x h, validate t = true -> stores r t = true -> member r t x -> hint_for h t ->
  exists v, to_sql r x h = Ok v /\ inner_validate t v = true /\ from_sql r t v = Ok x /\ (has_null r = false -> is_null v = false).

Lemma list_round r t h l : goes_round r -> validate t = true -> stores r t = true -> Forall (member r t) l -> hint_for h t ->
  exists vs, mapM (fun x => to_sql r x h) l = Ok vs /\ forallb (inner_validate t) vs = true /\ mapM (from_sql r t) vs = Ok l.
Proof.
  intros G V S M H. induction M as [|x l Hx _ IH]; [exists []; auto|].
  destruct (G t x h V S Hx H) as (v & A & B & C & _). destruct IH as (vs & A' & B' & C'). exists (v :: vs).
  cbn [mapM forallb]. rewrite A, A', B, B', C, C'. auto.
Qed.

Lemma byte_stores r t : byte_type r <> None -> stores r t = true -> match t with TString | TFixedString _ => False | _ => True end.
Proof.
  destruct r; cbn [byte_type]; try congruence. intros _ S. cbn [stores] in S. destruct l; cbn [leaf_type] in S; destruct t; try discriminate; exact I.
Qed.

Lemma array_hint t h : hint_for h (TArray t) -> h = Some (TArray t).
Proof. intros [H|[L _]]; [exact H|discriminate]. Qed.
Lemma tuple_hint t h : hint_for h (TTuple t) -> h = Some (TTuple t).
Proof. intros [H|[L _]]; [exact H|discriminate]. Qed.
Lemma map_hint a b h : hint_for h (TMap a b) -> h = Some (TMap a b).
Proof. intros [H|[L _]]; [exact H|discriminate]. Qed.

Lemma round r : goes_round r.
Proof.
  induction r as [l| | | | | | |r IH|n r IH|r IH|r IH|r IH|rs IH|rk rv IHk IHv|ua uf ug] using rty_nested_ind; intros t x h V S M H.
  - (* leaf *) destruct x; cbn [member] in M; try tauto. destruct M as [C Z]. cbn [stores] in S.
    destruct (leaf_roundtrip l t v S C Z) as [A B]. exists v. cbn [to_sql from_sql]. rewrite S, C. auto.
  - (* bool *) destruct x; cbn [member] in M; try tauto. destruct t; cbn [stores] in S; try discriminate. destruct w; try discriminate.
    eexists. cbn [to_sql]. split; [reflexivity|]. cbn [inner_validate from_sql iw_eqb]. repeat split. destruct b; reflexivity.
  - (* string *) destruct x; cbn [member] in M; try tauto. exists (VString (utf8 s)). cbn [to_sql]. split; [reflexivity|].
    pose proof (utf8_roundtrip s M) as U.
    destruct t; cbn [stores] in S; try discriminate; cbn [inner_validate from_sql rstring_from]; rewrite U; auto.
  - (* bytes *) destruct x; cbn [member] in M; try tauto. destruct (bytes_roundtrip bs t h M S H) as (A & B & C).
    eexists. cbn [to_sql]. split; [reflexivity|]. cbn [from_sql]. rewrite C. auto.
  - (* value *) destruct x; cbn [member] in M; try tauto. eexists. cbn [to_sql from_sql]. split; [reflexivity|]. split; [exact M|]. split; [reflexivity|]. discriminate.
  - (* decimal *) destruct x; cbn [member] in M; try tauto. destruct M as (D & w & p & T & SC & B).
    destruct (decimal_roundtrip d t h w p V D T SC B H) as (v & A1 & A2 & A3 & A4). exists v. cbn [to_sql from_sql]. rewrite A4. auto.
  - (* chrono *) destruct x; cbn [member] in M; try tauto. destruct M as (Z & SB & NB & MB).
    destruct t; cbn [stores] in S; try discriminate. apply N.eqb_eq in S. subst p. cbn [zone_ok] in Z.
    destruct (instant_roundtrip i z (eq_sym Z) SB NB MB) as (v & A1 & A2 & A3 & A4). exists v. cbn [to_sql from_sql]. rewrite A4. auto.
  - (* vec *) destruct x; cbn [member] in M; try tauto. destruct t; try tauto. apply array_hint in H. subst h. cbn [stores validate] in S, V.
    cbn [to_sql obind unarray option_map].
    destruct (list_round r (strip_low_cardinality t) (Some (strip_low_cardinality t)) l IH (validate_strip t V) S M (or_introl eq_refl)) as (vs & A & B & C).
    exists (VArray vs). rewrite A. cbn [rbind inner_validate from_sql has_null is_null]. rewrite C. cbn [rbind].
    rewrite (forallb_ext _ _ (fun v => eq_sym (inner_validate_strip t v))) in B || idtac.
    assert (B' : forallb (inner_validate t) vs = true).
    { apply forallb_forall. intros v I. rewrite <- inner_validate_strip. apply (proj1 (forallb_forall _ _) B v I). }
    split; [|auto]. destruct (byte_type r) eqn:E; [|destruct (strip_low_cardinality t); reflexivity].
    pose proof (byte_stores r (strip_low_cardinality t) ltac:(congruence) S) as F. destruct (strip_low_cardinality t); try reflexivity; destruct F.
  - (* array *) destruct x; cbn [member] in M; try tauto. destruct t; try tauto. destruct M as [L M]. apply array_hint in H. subst h. cbn [stores validate] in S, V.
    cbn [to_sql obind unarray option_map].
    destruct (list_round r (strip_low_cardinality t) (Some (strip_low_cardinality t)) l IH (validate_strip t V) S M (or_introl eq_refl)) as (vs & A & B & C).
    exists (VArray vs). rewrite A. cbn [rbind inner_validate from_sql has_null is_null].
    assert (E : lenN vs =? n = true). { apply mapM_ok_length in A. apply N.eqb_eq. unfold lenN in *. now rewrite A. }
    rewrite E, C. cbn [rbind]. split; [reflexivity|]. split; [|auto].
    apply forallb_forall. intros v I. rewrite <- inner_validate_strip. apply (proj1 (forallb_forall _ _) B v I).
  - (* vec tuple *) destruct x; cbn [member] in M; try tauto. destruct t as [| | | | | | | | | | | | | | | | | | | | | | | | | | |ts| |]; try tauto. apply tuple_hint in H. subst h. cbn [stores validate] in S, V.
    cbn [to_sql obind untuple].
    assert (K : forall ts0 pre, ts0 = pre ++ ts -> exists vs,
      (fix go (i : nat) l := match l with [] => Ok [] | x :: l' => v <- to_sql r x (nth_error ts0 i) ;; vs <- go (Datatypes.S i) l' ;; Ok (v :: vs) end) (length pre) l = Ok vs
      /\ zip_all inner_validate ts vs = true /\ lenN vs = lenN ts /\ mapM (fun tv => from_sql r (fst tv) (snd tv)) (combine ts vs) = Ok l).
    { clear ts0 || idtac. revert l M. induction ts as [|t ts IHts]; intros [|x l] M ts0 pre E; cbn [all2] in M; try tauto.
      - exists []. auto.
      - destruct M as [Mx M]. cbn [forallb] in S, V. apply andb_prop in S as [S1 S]. apply andb_prop in V as [V1 V].
        assert (N0 : nth_error ts0 (length pre) = Some t) by (subst ts0; rewrite nth_error_app2, Nat.sub_diag by lia; reflexivity).
        destruct (IH t x (Some t) V1 S1 Mx (or_introl eq_refl)) as (v & A & B & C & _).
        destruct (IHts V S l M ts0 (pre ++ [t])) as (vs & A' & B' & L' & C'); [subst ts0; now rewrite <- app_assoc|].
        rewrite app_length, Nat.add_comm in A'. cbn [length Nat.add] in A'. exists (v :: vs).
        rewrite N0, A. cbn [rbind]. rewrite A'. cbn [rbind zip_all combine mapM fst snd]. rewrite B, B', C, C'. unfold lenN in *. cbn [length]. repeat split. lia. }
    destruct (K ts [] eq_refl) as (vs & A & B & L & C). cbn [length] in A. exists (VTuple vs). rewrite A. cbn [rbind inner_validate from_sql is_null].
    rewrite L, N.eqb_refl, C. auto.
  - (* option *) destruct x; cbn [member] in M; try tauto. destruct o as [x|].
    + destruct t; try tauto. cbn [stores validate] in S, V. apply andb_prop in S as [HN S]. apply andb_prop in V as [NF V].
      assert (ST : strip_low_cardinality t = t) by (destruct t; reflexivity || discriminate). rewrite ST in *.
      assert (H' : hint_for (obind h unnull) t).
      { destruct H as [->|[L HH]]; [now left|]. cbn [strip_null] in L. right.
        assert (strip_null t = t) as -> by (destruct t; reflexivity || discriminate). split; [exact L|]. right. destruct HH as [->| ->]; reflexivity. }
      destruct (IH t x _ V S M H') as (v & A & B & C & D). exists v. cbn [to_sql]. split; [exact A|]. cbn [inner_validate from_sql]. rewrite ST, B.
      apply negb_true_iff in HN. specialize (D HN). split; [now rewrite orb_true_r|]. split; [|discriminate].
      destruct v; try discriminate; rewrite C; reflexivity.
    + destruct t; cbn [stores] in S; try discriminate. exists VNull. cbn [to_sql inner_validate from_sql is_null orb]. repeat split. discriminate.
  - (* box *) cbn [stores] in S. cbn [member] in M. destruct (IH t x h V S M H) as (v & A & B & C & D). exists v. cbn [to_sql from_sql has_null]. destruct x; auto.
  - (* tuple *) destruct x; cbn [member] in M; try tauto. destruct t as [| | | | | | | | | | | | | | | | | | | | | | | | | | |ts| |]; try tauto. apply tuple_hint in H. subst h. cbn [stores validate] in S, V.
    cbn [to_sql obind untuple].
    assert (K : forall ts0 pre, ts0 = pre ++ ts -> exists vs,
      (fix go (i : nat) rs l := match rs, l with
             | r1 :: rs', x :: l' => v <- to_sql r1 x (nth_error ts0 i) ;; vs <- go (Datatypes.S i) rs' l' ;; Ok (v :: vs)
             | [], [] => Ok []
             | _, _ => Panic
             end) (length pre) rs l = Ok vs
      /\ zip_all inner_validate ts vs = true /\ lenN vs = lenN ts /\ lenN vs = lenN rs /\
      (fix go rs ts vs := match rs, ts, vs with
                          | r1 :: rs', t1 :: ts', v1 :: vs' =>
                              x <- from_sql r1 (strip_low_cardinality t1) v1 ;; xs <- go rs' ts' vs' ;; Ok (x :: xs)
                          | _, _, _ => Ok []
                          end) rs ts vs = Ok l).
    { revert rs IH l M S V. induction ts as [|t ts IHts]; intros [|r rs] IH [|x l] M S V ts0 pre E; try tauto; try discriminate.
      - exists []. auto.
      - destruct M as [Mx M]. cbn [forallb forall2b] in S, V. apply andb_prop in S as [S1 S]. apply andb_prop in V as [V1 V].
        pose proof (Forall_inv IH) as IHr. apply Forall_inv_tail in IH. cbv beta in IHr.
        assert (N0 : nth_error ts0 (length pre) = Some t) by (subst ts0; rewrite nth_error_app2, Nat.sub_diag by lia; reflexivity).
        destruct (IHr (strip_low_cardinality t) x (Some t) (validate_strip t V1) S1 Mx (hint_strip t V1)) as (v & A & B & C & _).
        destruct (IHts rs IH l M S V ts0 (pre ++ [t])) as (vs & A' & B' & L1 & L2 & C'); [subst ts0; now rewrite <- app_assoc|].
        rewrite app_length, Nat.add_comm in A'. cbn [length Nat.add] in A'. exists (v :: vs).
        rewrite N0, A. cbn [rbind]. rewrite A'. cbn [rbind zip_all]. rewrite inner_validate_strip in B. rewrite B, B', C, C'. unfold lenN in *. cbn [length]. repeat split; lia. }
    destruct (K ts [] eq_refl) as (vs & A & B & L1 & L2 & C). cbn [length] in A. exists (VTuple vs). rewrite A. cbn [rbind inner_validate from_sql is_null].
    rewrite L1, N.eqb_refl. cbn [negb]. rewrite <- L1, L2, N.eqb_refl. cbn [negb]. rewrite C. auto.
  - (* map *) destruct x; cbn [member] in M; try tauto. destruct t; try tauto. destruct M as [ND M]. apply map_hint in H. subst h.
    cbn [stores validate] in S, V. apply andb_prop in S as [S1 S2]. apply andb_prop in V as [V V2]. apply andb_prop in V as [_ V1].
    cbn [to_sql obind unmap option_map fst snd].
    assert (K : exists kvs, mapM (fun kv => k <- to_sql rk (fst kv) (Some t1) ;; v <- to_sql rv (snd kv) (Some t2) ;; Ok (k, v)) l = Ok kvs /\
       forallb (inner_validate t1) (map fst kvs) = true /\ forallb (inner_validate t2) (map snd kvs) = true /\
       mapM (fun p => k <- from_sql rk (strip_low_cardinality t1) (fst p) ;; w <- from_sql rv (strip_low_cardinality t2) (snd p) ;; Ok (k, w)) (combine (map fst kvs) (map snd kvs)) = Ok l).
    { clear ND. induction M as [|[k v] l [Mk Mv] _ IHl]; [exists []; auto|]. cbn [fst snd] in *.
      destruct (IHk _ k (Some t1) (validate_strip t1 V1) S1 Mk (hint_strip t1 V1)) as (a & A & B & C & _).
      destruct (IHv _ v (Some t2) (validate_strip t2 V2) S2 Mv (hint_strip t2 V2)) as (b & A' & B' & C' & _).
      destruct IHl as (kvs & D & E & F & G). exists ((a, b) :: kvs). rewrite inner_validate_strip in B, B'.
      cbn [mapM fst snd map combine forallb]. rewrite A, A', D, B, B', E, F, C, C'. cbn [rbind]. rewrite G. auto. }
    destruct K as (kvs & A & B & C & D). exists (VMap (map fst kvs) (map snd kvs)). rewrite A. cbn [rbind inner_validate from_sql is_null].
    rewrite B, C, D. cbn [rbind andb]. rewrite (rmap_fold l [] ND). auto.
  - (* user *) destruct (M h H) as (v & A & B & C & D). exists v. cbn [from_sql]. repeat split; auto.
Qed.
