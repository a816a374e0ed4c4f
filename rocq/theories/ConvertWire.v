(** Rust values through conversion, the wire and back. *)
From Verif Require Import Base Io Types Ser Deser Text Utf8 RawRow Numeric NumericSpec NumericProofs ColumnSpec ColumnProofs Convert ConvertSpec ConvertProofs.

Definition good (t : ty) (v : value) : bool := representable v && shape_ok t v && canonical t v.
Lemma good_strip t v : good (strip_low_cardinality t) v = good t v.
Proof. destruct t; reflexivity. Qed.
Lemma good_iff t v : good t v = true <-> representable v = true /\ shape_ok t v = true /\ canonical t v = true.
Proof. unfold good. rewrite !andb_true_iff. tauto. Qed.

Lemma signedb_in w x : in_signed w x -> signedb w x = true.
Proof. unfold in_signed, signedb. intros [A B]. apply andb_true_intro. split; [now apply Z.leb_le|now apply Z.ltb_lt]. Qed.

Definition stays_good (r : rty) : Prop := forall t x h v, validate t = true -> stores r t = true -> member r t x -> survives r t x -> hint_for h t ->
  to_sql r x h = Ok v -> good t v = true.

Lemma forallb_good t vs : forallb (good t) vs = true ->
  forallb representable vs = true /\ forallb (shape_ok t) vs = true /\ forallb (canonical t) vs = true.
Proof.
  intros H. repeat split; apply forallb_forall; intros v I; pose proof (proj1 (forallb_forall _ _) H v I) as G; apply good_iff in G; tauto.
Qed.

Lemma list_good r t h l vs : stays_good r -> validate t = true -> stores r t = true -> Forall (member r t) l -> Forall (survives r t) l -> hint_for h t ->
  mapM (fun x => to_sql r x h) l = Ok vs -> forallb (good t) vs = true.
Proof.
  intros G V S M W H. revert W vs. induction M as [|x l Hx _ IH]; intros W vs E; cbn [mapM] in E.
  - inversion E. reflexivity.
  - destruct (to_sql r x h) as [v| |] eqn:Ev; cbn [rbind] in E; try discriminate.
    destruct (mapM _ l) as [vs'| |] eqn:Evs; cbn [rbind] in E; try discriminate. inversion E; subst. cbn [forallb].
    rewrite (G t x h v V S Hx (Forall_inv W) H Ev), (IH (Forall_inv_tail W) vs' eq_refl). reflexivity.
Qed.

Lemma bytes_byteb bs : bytes_ok bs -> forallb byteb bs = true.
Proof. intros M. apply forallb_forall; intros b I; apply N.ltb_lt; apply (proj1 (Forall_forall _ _) M b I). Qed.
Lemma forallb_mapped {A B} (f : B -> bool) (g : A -> B) l : (forall a, In a l -> f (g a) = true) -> forallb f (map g l) = true.
Proof. intros H. apply forallb_forall. intros b I. apply in_map_iff in I as (a & <- & I). now apply H. Qed.
Lemma u2s8_signed b : b < 256 -> signedb 8 (u2s 8 b) = true.
Proof.
  intros H. unfold u2s, signedb. change (2 ^ Z.of_N (8 - 1))%Z with 128%Z. change (2 ^ (8 - 1)) with 128. 
  destruct (N.ltb_spec b 128); apply andb_true_intro; split; try apply Z.leb_le; try apply Z.ltb_lt; try lia.
  all: change (Z.of_N (2 ^ 8)) with 256%Z; lia.
Qed.

Lemma dec_good d t h v w p : dec_ok d -> decimal_type t = Some (w, p) -> d_scale d = p -> in_signed w (d_mantissa d) -> validate t = true -> hint_for h t ->
  dec_to_sql d h = Ok v -> good t v = true.
Proof.
  intros D T SC B V H E. destruct (decimal_roundtrip d t h w p V D T SC B H) as (v' & A1 & A2 & _ & A4).
  assert (v' = v) by congruence. subst v'. clear A1.
  destruct t; cbn [decimal_type] in T; try discriminate; inversion T; subst; clear T; destruct v; cbn [inner_validate] in A2; try discriminate;
   apply good_iff; (split; [|split; reflexivity]); cbn [representable]; cbn [dec_from_sql] in A4; unfold dec_try in A4;
   match type of A4 with (if ?b then _ else _) = _ => destruct b; [|discriminate] end; injection A4 as A5; subst d; cbn [d_mantissa] in B; apply signedb_in; exact B.
Qed.

Lemma stays r : stays_good r.
Proof.
  induction r as [l| | | | | | |r IH|n r IH|r IH|r IH|r IH|rs IH|rk rv IHk IHv|ua uf ug] using rty_nested_ind; intros t x h v V S M W H E.
  - destruct x; cbn [member] in M; try tauto. destruct M as [C Z]. cbn [stores survives to_sql] in S, W, E. inversion E; subst. apply good_iff.
    split; [exact W|]. destruct l; destruct t; cbn [leaf_type] in S; try discriminate; destruct v; cbn [leaf_content] in C; try discriminate; split; try reflexivity.
    all: cbn [canonical]; try reflexivity. all: destruct w0; reflexivity.
  - destruct x; cbn [member] in M; try tauto. destruct t; cbn [stores] in S; try discriminate. destruct w; try discriminate. cbn [to_sql] in E. inversion E; subst. destruct b; reflexivity.
  - destruct x; cbn [member] in M; try tauto. cbn [to_sql] in E. inversion E; subst. cbn [survives] in W.
    apply good_iff. cbn [representable]. rewrite (bytes_byteb _ (utf8_bytes s M)). destruct t; cbn [stores] in S; try discriminate; auto.
  - destruct x; cbn [member] in M; try tauto. cbn [to_sql] in E. cbn [survives] in W. inversion E; subst. apply good_iff.
    pose proof (bytes_byteb _ M) as B. pose proof (proj1 (Forall_forall _ _) M) as B'.
    destruct t; cbn [stores] in S; try discriminate.
    + destruct H as [->|[L [->| ->]]]; cbn [bytes_to_sql representable shape_ok canonical]; auto.
    + destruct H as [->|[L [->| ->]]]; cbn [bytes_to_sql representable shape_ok canonical]; auto.
    + apply array_hint in H. subst h. destruct t; try discriminate; destruct w; try discriminate; cbn [bytes_to_sql representable shape_ok canonical];
      repeat split; apply forallb_mapped; intros b I; try reflexivity; specialize (B' b I); cbv beta in B'.
      * now apply u2s8_signed.
      * now apply N.ltb_lt.
  - destruct x; cbn [member] in M; try tauto. cbn [to_sql] in E. cbn [survives] in W. inversion E; subst. now apply good_iff.
  - destruct x; cbn [member] in M; try tauto. destruct M as (D & w & p & T & SC & B). cbn [to_sql] in E.
    exact (dec_good d t h v w p D T SC B V H E).
  - destruct x; cbn [member] in M; try tauto. destruct M as (Z & SB & NB & MB). cbn [to_sql] in E.
    destruct t; cbn [stores] in S; try discriminate. unfold chrono_to_sql in E. destruct (Z.ltb_spec (i_secs i * 1000000 + Z.of_N (i_nanos i / 1000)) 0); [discriminate|].
    inversion E; subst. apply good_iff. split; [|split; reflexivity]. cbn [representable]. apply N.ltb_lt.
    assert (i_nanos i / 1000 < 1000000) by (apply N.div_lt_upper_bound; [lia|exact NB]).
    unfold CHRONO_MAX_SECS in SB. assert (2 ^ 64 = 18446744073709551616) as -> by reflexivity. revert H0 H1 SB. clear. generalize (i_nanos i / 1000). intros. lia.
  - destruct x; cbn [member] in M; try tauto. destruct t; try tauto. apply array_hint in H. subst h. cbn [stores validate survives] in S, V, W.
    cbn [to_sql obind unarray option_map] in E.
    assert (E' : (vs <- mapM (fun x => to_sql r x (Some (strip_low_cardinality t))) l ;; Ok (VArray vs)) = Ok v).
    { revert E. destruct (byte_type r) eqn:Eb; [|destruct (strip_low_cardinality t); exact (fun e => e)].
      pose proof (byte_stores r (strip_low_cardinality t) ltac:(congruence) S) as F. destruct (strip_low_cardinality t); try exact (fun e => e); destruct F. }
    destruct (mapM _ l) as [vs| |] eqn:Em; cbn [rbind] in E'; try discriminate. inversion E'; subst.
    pose proof (list_good r _ _ l vs IH (validate_strip t V) S M W (or_introl eq_refl) Em) as G.
    apply good_iff. cbn [representable shape_ok canonical]. apply forallb_good. apply forallb_forall. intros a I. rewrite <- good_strip. apply (proj1 (forallb_forall _ _) G a I).
  - destruct x; cbn [member] in M; try tauto. destruct t; try tauto. destruct M as [L M]. apply array_hint in H. subst h. cbn [stores validate survives] in S, V, W.
    cbn [to_sql obind unarray option_map] in E.
    destruct (mapM _ l) as [vs| |] eqn:Em; cbn [rbind] in E; try discriminate. inversion E; subst.
    pose proof (list_good r _ _ l vs IH (validate_strip t V) S M W (or_introl eq_refl) Em) as G.
    apply good_iff. cbn [representable shape_ok canonical]. apply forallb_good. apply forallb_forall. intros a I. rewrite <- good_strip. apply (proj1 (forallb_forall _ _) G a I).
  - destruct x; cbn [member] in M; try tauto. destruct t as [| | | | | | | | | | | | | | | | | | | | | | | | | | |ts| |]; try tauto. apply tuple_hint in H. subst h. cbn [stores validate survives] in S, V, W.
    cbn [to_sql obind untuple] in E.
    assert (K : forall ts0 pre vs, ts0 = pre ++ ts -> 
      (fix go (i : nat) l := match l with [] => Ok [] | x :: l' => v <- to_sql r x (nth_error ts0 i) ;; vs <- go (Datatypes.S i) l' ;; Ok (v :: vs) end) (length pre) l = Ok vs
      -> forallb representable vs = true /\ lenN ts = lenN vs /\ zip_all shape_ok ts vs = true /\ zip_all canonical ts vs = true).
    { clear E v. revert l M W. induction ts as [|t ts IHts]; intros [|x l] M W ts0 pre vs E R; cbn [all2] in M, W; try tauto.
      - inversion R. auto.
      - destruct M as [Mx M], W as [Wx W]. cbn [forallb] in S, V. apply andb_prop in S as [S1 S]. apply andb_prop in V as [V1 V].
        assert (N0 : nth_error ts0 (length pre) = Some t) by (subst ts0; rewrite nth_error_app2, Nat.sub_diag by lia; reflexivity).
        rewrite N0 in R. destruct (to_sql r x (Some t)) as [v| |] eqn:Ev; cbn [rbind] in R; try discriminate.
        match type of R with (rbind ?g _) = _ => destruct g as [vs'| |] eqn:Eg; cbn [rbind] in R; try discriminate end. inversion R; subst vs.
        destruct (IHts V S l M W ts0 (pre ++ [t]) vs') as (A & L & B & C); [subst ts0; now rewrite <- app_assoc| |].
        { rewrite app_length, Nat.add_comm. cbn [length Nat.add]. exact Eg. }
        pose proof (IH t x (Some t) v V1 S1 Mx Wx (or_introl eq_refl) Ev) as G. apply good_iff in G as (G1 & G2 & G3).
        cbn [forallb zip_all]. rewrite A, B, C, G1, G2, G3. unfold lenN in *. cbn [length]. repeat split. lia. }
    match type of E with (rbind ?g _) = _ => destruct g as [vs| |] eqn:Eg; cbn [rbind] in E; try discriminate end. inversion E; subst.
    destruct (K ts [] vs eq_refl Eg) as (A & L & B & C). apply good_iff. cbn [representable shape_ok canonical]. rewrite L, N.eqb_refl, B. auto.
  - destruct x; cbn [member] in M; try tauto. destruct t; cbn [stores] in S; try discriminate. cbn [survives] in W. destruct o as [x|].
    + cbn [validate] in V. apply andb_prop in S as [HN S]. apply andb_prop in V as [NF V].
      assert (ST : strip_low_cardinality t = t) by (destruct t; reflexivity || discriminate). rewrite ST in *.
      assert (H' : hint_for (obind h unnull) t).
      { destruct H as [->|[L HH]]; [now left|]. cbn [strip_null] in L. right.
        assert (strip_null t = t) as -> by (destruct t; reflexivity || discriminate). split; [exact L|]. right. destruct HH as [->| ->]; reflexivity. }
      cbn [to_sql] in E. pose proof (IH t x _ v V S M W H' E) as G. apply good_iff in G as (G1 & G2 & G3). apply good_iff. cbn [shape_ok canonical].
      destruct (round r t x _ V S M H') as (v' & A & _ & _ & D). assert (v' = v) by congruence. subst. apply negb_true_iff in HN. rewrite (D HN). auto.
    + cbn [to_sql] in E. inversion E. apply good_iff. cbn [representable shape_ok canonical is_null]. now rewrite W.
  - cbn [stores member survives] in S, M, W. apply (IH t x h v V S M W H). cbn [to_sql] in E. destruct x; exact E.
  - destruct x; cbn [member] in M; try tauto. destruct t as [| | | | | | | | | | | | | | | | | | | | | | | | | | |ts| |]; try tauto. apply tuple_hint in H. subst h. cbn [stores validate survives] in S, V, W.
    cbn [to_sql obind untuple] in E.
    assert (K : forall ts0 pre vs, ts0 = pre ++ ts -> 
      (fix go (i : nat) rs l := match rs, l with
             | r1 :: rs', x :: l' => v <- to_sql r1 x (nth_error ts0 i) ;; vs <- go (Datatypes.S i) rs' l' ;; Ok (v :: vs)
             | [], [] => Ok []
             | _, _ => Panic
             end) (length pre) rs l = Ok vs
      -> forallb representable vs = true /\ lenN ts = lenN vs /\ zip_all shape_ok ts vs = true /\ zip_all canonical ts vs = true).
    { clear E v. revert rs IH l M W S V. induction ts as [|t ts IHts]; intros [|r rs] IH [|x l] M W S V ts0 pre vs E R; try tauto; try discriminate.
      - inversion R. auto.
      - destruct M as [Mx M], W as [Wx W]. cbn [forallb forall2b] in S, V. apply andb_prop in S as [S1 S]. apply andb_prop in V as [V1 V].
        pose proof (Forall_inv IH) as IHr. apply Forall_inv_tail in IH. cbv beta in IHr.
        assert (N0 : nth_error ts0 (length pre) = Some t) by (subst ts0; rewrite nth_error_app2, Nat.sub_diag by lia; reflexivity).
        rewrite N0 in R. destruct (to_sql r x (Some t)) as [v| |] eqn:Ev; cbn [rbind] in R; try discriminate.
        match type of R with (rbind ?g _) = _ => destruct g as [vs'| |] eqn:Eg; cbn [rbind] in R; try discriminate end. inversion R; subst vs.
        destruct (IHts rs IH l M W S V ts0 (pre ++ [t]) vs') as (A & L & B & C); [subst ts0; now rewrite <- app_assoc| |].
        { rewrite app_length, Nat.add_comm. cbn [length Nat.add]. exact Eg. }
        pose proof (IHr _ x (Some t) v (validate_strip t V1) S1 Mx Wx (hint_strip t V1) Ev) as G. rewrite good_strip in G. apply good_iff in G as (G1 & G2 & G3).
        cbn [forallb zip_all]. rewrite A, B, C, G1, G2, G3. unfold lenN in *. cbn [length]. repeat split. lia. }
    match type of E with (rbind ?g _) = _ => destruct g as [vs| |] eqn:Eg; cbn [rbind] in E; try discriminate end. inversion E; subst.
    destruct (K ts [] vs eq_refl Eg) as (A & L & B & C). apply good_iff. cbn [representable shape_ok canonical]. rewrite L, N.eqb_refl, B. auto.
  - destruct x; cbn [member] in M; try tauto. destruct t; try tauto. destruct M as [ND M]. apply map_hint in H. subst h.
    cbn [stores validate survives] in S, V, W. apply andb_prop in S as [S1 S2]. apply andb_prop in V as [V V2]. apply andb_prop in V as [_ V1].
    cbn [to_sql obind unmap option_map fst snd] in E.
    assert (K : forall kvs, mapM (fun kv => k <- to_sql rk (fst kv) (Some t1) ;; v <- to_sql rv (snd kv) (Some t2) ;; Ok (k, v)) l = Ok kvs ->
       forallb (good t1) (map fst kvs) = true /\ forallb (good t2) (map snd kvs) = true).
    { clear ND E. induction M as [|[k w] l [Mk Mv] _ IHl]; intros kvs R; cbn [mapM] in R; [inversion R; auto|]. cbn [fst snd] in *.
      pose proof (Forall_inv W) as [Wk Wv]. apply Forall_inv_tail in W. cbn [fst snd] in Wk, Wv.
      destruct (to_sql rk k (Some t1)) as [a| |] eqn:Ea; cbn [rbind] in R; try discriminate.
      destruct (to_sql rv w (Some t2)) as [b| |] eqn:Eb; cbn [rbind] in R; try discriminate.
      destruct (mapM _ l) as [kvs'| |] eqn:Em; cbn [rbind] in R; try discriminate. inversion R; subst kvs.
      destruct (IHl W kvs' eq_refl) as [A B].
      pose proof (IHk _ k (Some t1) a (validate_strip t1 V1) S1 Mk Wk (hint_strip t1 V1) Ea) as Gk.
      pose proof (IHv _ w (Some t2) b (validate_strip t2 V2) S2 Mv Wv (hint_strip t2 V2) Eb) as Gv. rewrite good_strip in Gk, Gv.
      cbn [map fst snd forallb]. rewrite A, B, Gk, Gv. auto. }
    destruct (mapM _ l) as [kvs| |] eqn:Em; cbn [rbind] in E; try discriminate. inversion E; subst.
    destruct (K kvs eq_refl) as [A B]. apply forallb_good in A as (A1 & A2 & A3), B as (B1 & B2 & B3).
    apply good_iff. cbn [representable shape_ok canonical]. rewrite A1, A2, A3, B1, B2, B3. unfold lenN. rewrite !map_length, N.eqb_refl. auto.
  - apply good_iff. exact (W h v H E).
Qed.
