(** Proofs about half-written blocks (C91). *)
From Coq Require Import Lia.
From Verif Require Import Base Io IoProofs Types Text TypeText TypeTextProofs IndexMap Ser Deser DecodeProofs ColumnRoundtrip Block BlockSpec BlockProofs ReserveProofs
  Compression Progress Protocol Partial.
Local Open Scope list_scope.
Local Open Scope N_scope.

Local Lemma Ok_inj {A} (a b : A) : Ok a = Ok b -> a = b.
Proof. now intros [= ->]. Qed.

(** A reader that needs a byte does not succeed on nothing. *)
Lemma uses_nothing {A} (r : rd A) : uses 1 r -> is_ok (r []) = false.
Proof. intros U. destruct (r []) as [[v rest]| |] eqn:E; try reflexivity. apply U in E. cbn in E. lia. Qed.
Lemma bind_nothing {A B} (r : rd A) (f : A -> rd B) : is_ok (r []) = false -> is_ok (rdbind r f []) = false.
Proof. unfold rdbind. destruct (r []); [discriminate|reflexivity|reflexivity]. Qed.
Lemma read_n_nothing {A} n (r : rd A) : (0 < n)%nat -> is_ok (r []) = false -> is_ok (read_n n r []) = false.
Proof. intros P H. destruct n; [lia|]. cbn [read_n]. now apply bind_nothing. Qed.
Lemma check_nothing {A} rows (r : rd A) : is_ok (r []) = false -> is_ok (check_rows rows r []) = false.
Proof. unfold check_rows. now destruct (MAX_STRING_SIZE <? rows). Qed.
Lemma le_nothing n : (0 < n)%nat -> is_ok (read_le n []) = false.
Proof. intros P. apply uses_nothing. intros inp v rest E. apply uses_le in E. lia. Qed.
Lemma exact_nothing n : 0 < n -> is_ok (read_exact n []) = false.
Proof. intros P. apply uses_nothing. intros inp v rest E. apply uses_exact in E. lia. Qed.
Lemma array_nothing {A} inner (im : value -> res A) iv rows : 0 < rows -> is_ok (deser_array_generic inner im iv rows []) = false.
Proof. intros P. unfold deser_array_generic. destruct (N.eqb_spec rows 0); [lia|]. apply bind_nothing, read_n_nothing; [lia|]. apply le_nothing. lia. Qed.
Lemma float_nothing rows : 0 < rows -> is_ok (deser_float64 rows []) = false.
Proof. intros P. unfold deser_float64. apply check_nothing. unfold deser_sized. apply read_n_nothing; [lia|]. cbn [dec_sized]. apply bind_nothing, le_nothing. lia. Qed.
Lemma lc_nothing nullable inner rows : (forall n, local (inner n)) -> 0 < rows -> is_ok (deser_low_card nullable inner rows []) = false.
Proof.
  intros L P. unfold deser_low_card. rewrite lc_loop_iter. destruct (N.eqb_spec rows 0); [lia|].
  pose proof (uses_nothing _ (uses_iter inner nullable rows lc_init L n)) as H.
  destruct (lc_iter inner nullable rows lc_init []) as [[[[st r] vs] rest]| |]; [discriminate H|reflexivity|reflexivity].
Qed.

Lemma cols_nothing rows ts : Forall (fun t => zero_width t = false -> is_ok (deser t rows []) = false) ts -> forallb zero_width ts = false ->
  forall acc, is_ok (deser_cols rows ts acc []) = false.
Proof.
  induction ts as [|t ts IH]; intros F Z acc; [discriminate Z|]. cbn [deser_cols]. cbn [forallb] in Z. unfold rdbind.
  destruct (deser t rows []) as [[col rest]| |] eqn:E; [|reflexivity|reflexivity]. cbn [rbind].
  assert (R : rest = []). { pose proof (local_uses0 _ (deser_local t rows) _ _ _ E) as U. cbn in U. destruct rest; [reflexivity|cbn in U; lia]. }
  subst rest. destruct (zero_width t) eqn:ZT.
  - destruct (push_column acc col); cbn [rbind]; try reflexivity. apply IH; [exact (Forall_inv_tail F)|exact Z].
  - pose proof (Forall_inv F ZT) as X. rewrite E in X. discriminate X.
Qed.

Lemma zero_width_spec t : zero_width t = true -> no_bytes t.
Proof.
  induction t using ty_ind_leaf; intros Z; try discriminate Z.
  - destruct t; try discriminate. cbn [zero_width] in Z. apply N.eqb_eq in Z. subst. constructor.
  - cbn [zero_width] in Z. constructor. apply Forall_forall. intros t I. rewrite forallb_forall in Z. exact (proj1 (Forall_forall _ _) H _ I (Z _ I)).
Qed.
Lemma not_zero_width t : ~ no_bytes t -> zero_width t = false.
Proof. intros N0. destruct (zero_width t) eqn:Z; [|reflexivity]. destruct N0. now apply zero_width_spec. Qed.
(** Values take bytes: a column of at least one row cannot be read from nothing. *)
Lemma hungry t : forall rows, 0 < rows -> zero_width t = false -> is_ok (deser t rows []) = false.
Proof.
  induction t using ty_ind_leaf; intros rows P Z.
  - destruct t; try discriminate H; cbn [deser]; apply check_nothing;
      try (unfold deser_sized; apply read_n_nothing; [lia|]; cbn [dec_sized]; unfold read_signed, read_256;
           repeat first [apply le_nothing; first [lia|destruct w; cbn; lia|cbn; lia]|apply exact_nothing; lia|apply bind_nothing]; fail).
    + unfold deser_string. apply read_n_nothing; [lia|]. cbn [dec_string]. unfold read_string. repeat apply bind_nothing. apply uses_nothing, var_uses.
    + unfold deser_string. apply read_n_nothing; [lia|]. cbn [dec_string]. destruct (ISIZE_MAX <? n); [reflexivity|]. apply bind_nothing, exact_nothing.
      cbn [zero_width] in Z. apply N.eqb_neq in Z. lia.
    + unfold deser_point. apply check_nothing, bind_nothing, float_nothing, P.
    + unfold deser_ring. apply check_nothing, array_nothing, P.
    + unfold deser_polygon. apply check_nothing, array_nothing, P.
    + unfold deser_multipolygon. apply check_nothing, array_nothing, P.
  - cbn [deser]. apply check_nothing. destruct t; apply lc_nothing; try exact P; intros; apply deser_local.
  - cbn [deser]. apply check_nothing, array_nothing, P.
  - rewrite deser_tuple_eq. apply check_nothing, bind_nothing, cols_nothing; [|exact Z].
    eapply Forall_impl; [|exact H]. intros t Ht Zt. now apply Ht.
  - cbn [deser]. apply check_nothing, bind_nothing, exact_nothing, P.
  - cbn [deser]. apply check_nothing. destruct (N.eqb_spec rows 0); [lia|]. apply bind_nothing, read_n_nothing; [lia|]. apply le_nothing. lia.
Qed.

Section Until2.
  Variable part : ty -> list value -> list N.

  Lemma column_same D rows c : rmap (fun _ => tt) (write_column D rows c) = snd (column_until part D rows c) /\
    forall bs, write_column D rows c = Ok bs -> fst (column_until part D rows c) = bs.
  Proof.
    destruct c as [[name t] data]. unfold write_column, column_until. destruct (negb (lenN data =? rows)); [split; [reflexivity|intros bs H; discriminate H]|].
    destruct (0 <? rows).
    - destruct (ser t data); cbn [rbind rmap snd fst]; (split; [reflexivity|]); intros x H; try discriminate H. apply Ok_inj in H. subst x. now rewrite <- app_assoc.
    - cbn [rbind rmap snd fst]. split; [reflexivity|]. intros x H. apply Ok_inj in H. subst x. now rewrite app_nil_r.
  Qed.
  Lemma columns_same D rows cols : rmap (fun _ => tt) (mapM (write_column D rows) cols) = snd (columns_until part D rows cols) /\
    forall bss, mapM (write_column D rows) cols = Ok bss -> fst (columns_until part D rows cols) = concat bss.
  Proof.
    induction cols as [|c cols [IH1 IH2]]; [split; [reflexivity|intros bss H; apply Ok_inj in H; now subst]|]. cbn [mapM columns_until].
    destruct (column_same D rows c) as [S1 S2]. destruct (column_until part D rows c) as [bs r] eqn:E. cbn [fst snd] in *.
    destruct (write_column D rows c) as [b1|e|] eqn:W; cbn [rbind rmap] in *; subst r; [|split; [reflexivity|intros bss H; discriminate H]..].
    destruct (columns_until part D rows cols) as [more r]. cbn [fst snd] in *.
    destruct (mapM (write_column D rows) cols) as [b2|e|]; cbn [rbind rmap] in *; (split; [exact IH1|]); intros bss H; try discriminate H.
    apply Ok_inj in H. subst bss. cbn [concat]. rewrite (S2 _ eq_refl), (IH2 _ eq_refl). reflexivity.
  Qed.
  Lemma block_same D rev b : rmap (fun _ => tt) (write_block D rev b) = snd (block_until part D rev b) /\
    forall bs, write_block D rev b = Ok bs -> fst (block_until part D rev b) = bs.
  Proof.
    unfold write_block, block_until. destruct (columns_same D (b_rows b) (join_columns (b_types b) (b_data b))) as [S1 S2].
    destruct (columns_until part D (b_rows b) (join_columns (b_types b) (b_data b))) as [more r]. cbn [fst snd] in *.
    destruct (mapM (write_column D (b_rows b)) (join_columns (b_types b) (b_data b))) as [b2|e|]; cbn [rbind rmap] in *; (split; [exact S1|]); intros bss H; try discriminate H.
    apply Ok_inj in H. subst bss. rewrite (S2 _ eq_refl). reflexivity.
  Qed.

  (** The columns before the failing one are complete. *)
  Lemma columns_stop D rows before c after : (forall x, In x before -> exists bs, write_column D rows x = Ok bs) -> snd (column_until part D rows c) <> Ok tt ->
    exists bss, mapM (write_column D rows) before = Ok bss /\
      columns_until part D rows (before ++ c :: after) = (concat bss ++ fst (column_until part D rows c), snd (column_until part D rows c)).
  Proof.
    intros H N. induction before as [|x before IH].
    - exists []. split; [reflexivity|]. cbn [app columns_until concat]. destruct (column_until part D rows c) as [bs [[]| |]]; [now elim N|reflexivity|reflexivity].
    - destruct IH as (bss & M & E); [intros; apply H; now right|]. destruct (H x (or_introl eq_refl)) as [bs W]. exists (bs :: bss). cbn [mapM]. rewrite W. cbn [rbind]. rewrite M.
      split; [reflexivity|]. cbn [app columns_until]. destruct (column_same D rows x) as [S1 S2]. rewrite W in S1. cbn [rmap rbind] in S1. specialize (S2 _ W).
      destruct (column_until part D rows x) as [b' r]. cbn [fst snd] in *. subst r b'. rewrite E. cbn [concat]. now rewrite app_assoc.
  Qed.
End Until2.

Lemma bind_false {A B} (r : rd A) (f : A -> rd B) inp : is_ok (r inp) = false -> is_ok (rdbind r f inp) = false.
Proof. unfold rdbind. destruct (r inp); [discriminate|reflexivity|reflexivity]. Qed.

Lemma read_n_app {A} (r : rd A) n : forall m inp vs rest, read_n n r inp = Ok (vs, rest) ->
  is_ok (read_n m r rest) = false -> is_ok (read_n (n + m) r inp) = false.
Proof.
  induction n as [|n IH]; intros m inp vs rest H F; cbn [read_n] in H.
  - apply Ok_inj in H. apply pair_equal_spec in H as [_ <-]. exact F.
  - cbn [Nat.add read_n]. unfold rdbind in *. destruct (r inp) as [[v i1]| |]; try reflexivity. cbn [rbind] in *.
    destruct (read_n n r i1) as [[vs' i2]| |] eqn:E; try discriminate H. cbn [rbind rret] in H. apply Ok_inj in H. apply pair_equal_spec in H as [_ <-].
    assert (X := IH m i1 vs' i2 E F). destruct (read_n (n + m) r i1); [discriminate X|reflexivity|reflexivity].
Qed.

(** A ragged column's name and type are followed by nothing, and cannot be read as a column. *)
Lemma ragged_head U D rows name t : tzdb_ok D -> name_fits name -> name_fits (show_ty D t) -> printable U t -> 0 < rows -> zero_width t = false ->
  is_ok (read_column U D rows (write_text name ++ write_text (show_ty D t))) = false.
Proof.
  intros HD HN HT HP P Z. unfold read_column. unfold rdbind at 1. rewrite (read_write_text name) by exact HN. cbn [rbind]. unfold rdbind at 1.
  rewrite <- (app_nil_r (write_text (show_ty D t))), (read_write_text (show_ty D t)) by exact HT. cbn [rbind]. unfold rdbind at 1, lift.
  rewrite parse_show by assumption. cbn [rbind]. destruct (N.ltb_spec 0 rows); [|lia]. apply bind_nothing. unfold rdbind.
  destruct (deser_prefix t []) as [[u rest]| |] eqn:E; try reflexivity. cbn [rbind].
  pose proof (local_uses0 _ (prefix_local t) _ _ _ E) as L. cbn in L. destruct rest; [|cbn in L; lia]. now apply hungry.
Qed.

Theorem ragged_not_a_block part U D rev b before name t vs after p r :
  tzdb_ok D -> (- 2 ^ 31 <= bucket_num (b_info b) < 2 ^ 31)%Z -> 0 < b_rows b < 2 ^ 63 ->
  join_columns (b_types b) (b_data b) = before ++ (name, t, vs) :: after -> lenN (before ++ (name, t, vs) :: after) < 2 ^ 63 ->
  (forall k t vs, In (k, t, vs) before -> column_ok U D (b_rows b) k t vs) ->
  name_fits name -> name_fits (show_ty D t) -> printable U t -> zero_width t = false -> lenN vs <> b_rows b ->
  block_until part D rev b = (p, r) -> r = Err EProtocol /\ is_ok (read_block U D rev p) = false.
Proof.
  intros HD HB [P1 P2] J HL BO HN HT HP Z RG H. unfold block_until in H. rewrite J in H.
  assert (CU : column_until part D (b_rows b) (name, t, vs) = (write_text name ++ write_text (show_ty D t), Err EProtocol)).
  { unfold column_until. destruct (N.eqb_spec (lenN vs) (b_rows b)); [contradiction|reflexivity]. }
  destruct (read_write_cols U D (b_rows b) before HD BO) as (bss & M & R).
  destruct (columns_stop part D (b_rows b) before (name, t, vs) after) as (bss' & M' & E).
  { intros x X. exact (mapM_ok_forall _ _ _ M x X). } { rewrite CU. discriminate. }
  rewrite M in M'. apply Ok_inj in M'. subst bss'. rewrite E, CU in H. cbn [fst snd] in H. apply pair_equal_spec in H as [<- <-]. split; [reflexivity|].
  assert (F : is_ok (read_n (N.to_nat (lenN (before ++ (name, t, vs) :: after))) (read_column U D (b_rows b)) (concat bss ++ write_text name ++ write_text (show_ty D t))) = false).
  { replace (N.to_nat (lenN (before ++ (name, t, vs) :: after))) with (length before + S (length after))%nat by (unfold lenN; rewrite app_length; cbn [length]; lia).
    eapply read_n_app; [apply R|]. cbn [read_n]. apply bind_false. now apply ragged_head. }
  unfold read_block. unfold rdbind at 1. rewrite <- ?app_assoc.
  assert (G : forall info, is_ok ((columns <~ read_var_uint ;;; rows <~ read_var_uint ;;; cs <~ read_n (N.to_nat columns) (read_column U D rows) ;;;
     rret (fold_left add_column cs {| b_info := info; b_rows := rows; b_types := []; b_data := [] |}))
     (write_var_uint (lenN (before ++ (name, t, vs) :: after)) ++ write_var_uint (b_rows b) ++ concat bss ++ write_text name ++ write_text (show_ty D t))) = false).
  { intros info. unfold rdbind at 1. rewrite read_write_var_uint by exact HL. cbn [rbind]. unfold rdbind at 1. rewrite read_write_var_uint by lia. cbn [rbind]. unfold rdbind at 1.
    destruct (read_n (N.to_nat (lenN (before ++ (name, t, vs) :: after))) (read_column U D (b_rows b)) (concat bss ++ write_text name ++ write_text (show_ty D t)));
      [discriminate F|reflexivity|reflexivity]. }
  destruct (0 <? rev).
  - rewrite read_write_info by exact HB. cbn [rbind]. apply G.
  - unfold rret at 1. cbn [app rbind]. apply G.
Qed.
