(** Exactly which bytes make decoding a column panic. *)
From Coq Require Import Sorting.Sorted.
From Verif Require Import Base Io IoProofs Types Ser Deser ColumnSpec ColumnProofs ColumnRoundtrip LowCardProofs WireProofs DecodeProofs DecodeProofs2
  ConvertSpec DecodeTyped WireSpec WireDecode.

(* ---------------- specification ---------------- *)

(** [inp] starts with [rows] eight-byte numbers [offs], followed by [rest]. *)
Definition offsets_at (rows : N) (inp : list N) (offs : list N) (rest : list N) : Prop :=
  exists ob, inp = ob ++ rest /\ words 8 offs ob /\ lenN offs = rows.

(** An offset-encoded column panics if its items do, or if they can be read and the offsets
    ever decrease. *)
Definition array_panics (inner_panics : N -> list N -> Prop) (item : ty) (rows : N) (inp : list N) : Prop :=
  0 < rows <= 2 ^ 30 /\ exists offs rest, offsets_at rows inp offs rest /\
    (inner_panics (last offs 0) rest \/
     (is_ok (deser item (last offs 0) rest) = true /\ ~ Sorted N.le offs)).
Definition ring_panics := array_panics (fun _ _ => False) TPoint.
Definition polygon_panics := array_panics ring_panics TRing.
Definition multi_panics := array_panics polygon_panics TPolygon.

(** A column panics if: an array's offsets decrease; a map's dictionary-encoded keys or values
    come up short or an offset exceeds the last one; or one of these happens inside. *)
Fixpoint column_panics (t : ty) (rows : N) (inp : list N) {struct t} : Prop :=
  match t with
  | TArray t' => array_panics (column_panics t') t' rows inp
  | TRing => ring_panics rows inp
  | TPolygon => polygon_panics rows inp
  | TMultiPolygon => multi_panics rows inp
  | TNullable t' => rows <= 2 ^ 30 /\ exists mask rest, inp = mask ++ rest /\ lenN mask = rows /\ column_panics t' rows rest
  | TTuple ts =>
      rows <= 2 ^ 30 /\
      (fix go (ts : list ty) (inp : list N) : Prop :=
         match ts with
         | [] => False
         | t1 :: ts' => column_panics t1 rows inp \/ exists col rest, deser t1 rows inp = Ok (col, rest) /\ go ts' rest
         end) ts inp
  | TMap k v =>
      0 < rows <= 2 ^ 30 /\ exists offs rest, offsets_at rows inp offs rest /\
      (column_panics k (last offs 0) rest \/
       exists ks rest1, deser k (last offs 0) rest = Ok (ks, rest1) /\
       (lenN ks <> last offs 0 \/ column_panics v (last offs 0) rest1 \/
        exists vs rest2, deser v (last offs 0) rest1 = Ok (vs, rest2) /\
        (lenN vs <> last offs 0 \/ exists o, In o offs /\ last offs 0 < o)))
  | _ => False
  end.

(* ---------------- proof ---------------- *)
Lemma check_panic {A} rows (r : rd A) inp : check_rows rows r inp = Panic <-> rows <= 2 ^ 30 /\ r inp = Panic.
Proof.
  unfold check_rows. change MAX_STRING_SIZE with (2 ^ 30). destruct (N.ltb_spec (2 ^ 30) rows).
  - split; [discriminate|intros [? _]; lia].
  - split; [auto|tauto].
Qed.

Lemma bind_panic {A B} (x : res A) (f : A -> res B) : rbind x f = Panic <-> x = Panic \/ exists a, x = Ok a /\ f a = Panic.
Proof.
  destruct x; cbn [rbind].
  - split; [intros H; right; eauto|intros [H|(b & [= <-] & H)]; [discriminate|exact H]].
  - split; [discriminate|intros [H|(b & H & _)]; discriminate].
  - split; [auto|reflexivity].
Qed.
Lemma rdbind_panic {A B} (r : rd A) (f : A -> rd B) inp : rdbind r f inp = Panic <-> r inp = Panic \/ exists a rest, r inp = Ok (a, rest) /\ f a rest = Panic.
Proof.
  unfold rdbind. rewrite bind_panic. split; intros [H|H]; auto; right.
  - destruct H as ([a rest] & E & H). eauto.
  - destruct H as (a & rest & E & H). exists (a, rest). auto.
Qed.

Lemma bytes_app a b : bytes_ok (a ++ b) -> bytes_ok a /\ bytes_ok b.
Proof. intros H. unfold bytes_ok in *. rewrite Forall_app in H. exact H. Qed.

Lemma read_le_word n inp x rest : bytes_ok inp -> read_le n inp = Ok (x, rest) -> exists bs, inp = bs ++ rest /\ word (N.of_nat n) x bs.
Proof.
  intros Hb H. unfold read_le, rdbind in H. destruct (read_exact (N.of_nat n) inp) as [[bs r]| |] eqn:E; try discriminate. cbn [rbind] in H.
  apply read_exact_ok in E as [-> L]. injection H as <- <-. exists bs. split; [reflexivity|].
  apply bytes_app in Hb as [Hb _]. split; [exact L|]. split; [exact Hb|apply number_le_val].
Qed.
Lemma read_n_words k n inp xs rest : bytes_ok inp -> read_n n (read_le k) inp = Ok (xs, rest) ->
  exists bs, inp = bs ++ rest /\ words (N.of_nat k) xs bs /\ length xs = n.
Proof.
  revert inp xs. induction n as [|n IH]; intros inp xs Hb H.
  - injection H as <- <-. exists []. split; [reflexivity|]. split; [exists []; split; [constructor|reflexivity]|reflexivity].
  - cbn [read_n] in H. unfold rdbind in H. destruct (read_le k inp) as [[x i1]| |] eqn:E; try discriminate. cbn [rbind] in H.
    destruct (read_n n (read_le k) i1) as [[ys i2]| |] eqn:E2; try discriminate. cbn [rbind] in H. injection H as <- <-.
    destruct (read_le_word _ _ _ _ Hb E) as (b1 & -> & W). apply bytes_app in Hb as [_ Hb].
    destruct (IH _ _ Hb E2) as (b2 & -> & (ps & F & ->) & L). exists (b1 ++ concat ps). split; [apply app_assoc|].
    split; [exists (b1 :: ps); split; [now constructor|reflexivity]|cbn [length]; lia].
Qed.
Lemma read_offsets rows inp : bytes_ok inp ->
  read_n (N.to_nat rows) (read_le 8) inp <> Panic /\
  forall offs rest, read_n (N.to_nat rows) (read_le 8) inp = Ok (offs, rest) <-> offsets_at rows inp offs rest.
Proof.
  intros Hb. split; [apply np_n, np_le|]. intros offs rest. split.
  - intros H. destruct (read_n_words 8 _ _ _ _ Hb H) as (ob & -> & W & L). exists ob. split; [reflexivity|]. split; [exact W|]. unfold lenN. lia.
  - intros (ob & -> & W & <-). apply (read_words 8 8); [reflexivity|exact W].
Qed.

Lemma split_offsets_panic {A} : forall offs prev (items : list A),
  split_offsets prev offs items = Panic <-> ~ Sorted N.le (prev :: offs).
Proof.
  induction offs as [|o offs IH]; intros prev items; cbn [split_offsets].
  - split; [discriminate|intros H; exfalso; apply H; repeat constructor].
  - destruct (N.ltb_spec o prev) as [Ho|Ho].
    + split; [|reflexivity]. intros _ H. inversion H as [|x l _ Hr]; subst. inversion Hr; subst. lia.
    + rewrite bind_panic, (IH o). split.
      * intros [H|(a & _ & H)]; [|discriminate]. intros HS. apply H. now inversion HS.
      * intros H. left. intros HS. apply H. constructor; [exact HS|constructor; exact Ho].
Qed.
Lemma sorted_zero offs : Sorted N.le (0 :: offs) <-> Sorted N.le offs.
Proof.
  split; intros H; [now inversion H|]. constructor; [exact H|]. destruct offs; constructor. lia.
Qed.
Lemma split_map_panic : forall offs done ks vs, lenN ks = lenN vs ->
  split_map done offs ks vs = Panic <-> exists o, In o offs /\ done + lenN ks < o.
Proof.
  induction offs as [|o offs IH]; intros done ks vs HL; cbn [split_map].
  - split; [discriminate|intros (x & [] & _)].
  - rewrite <- HL, orb_diag. destruct (N.ltb_spec (lenN ks) (o - done)) as [H|H].
    + split; [|reflexivity]. intros _. exists o. split; [now left|lia].
    + assert (D : forall l : list value, lenN l = lenN ks -> lenN (dropN (o - done) l) = lenN ks - (o - done)).
      { intros l Hl. rewrite dropN_skipn. unfold lenN in *. rewrite skipn_length. lia. }
      rewrite bind_panic, IH by (rewrite !D; auto). rewrite D by reflexivity. split.
      * intros [(x & Hi & Hx)|(a & _ & Hx)]; [|discriminate]. exists x. split; [now right|lia].
      * intros (x & [<-|Hi] & Hx); [lia|]. left. exists x. split; [exact Hi|lia].
Qed.

Definition panics_iff (r : N -> rd (list value)) (P : N -> list N -> Prop) : Prop :=
  forall rows inp, bytes_ok inp -> r rows inp = Panic <-> P rows inp.

Lemma array_panics_iff {A} (item : ty) (im : value -> res A) mk P :
  panics_iff (deser item) P ->
  (forall v, fine item v -> exists a, im v = Ok a) ->
  panics_iff (fun rows => check_rows rows (deser_array_generic (deser item) im mk rows)) (array_panics P item).
Proof.
  intros HI HM rows inp Hb. rewrite check_panic. unfold array_panics, deser_array_generic.
  destruct (N.eqb_spec rows 0) as [->|Hr]; [split; [intros [_ H]; discriminate|intros [H _]; lia]|].
  rewrite rdbind_panic. destruct (read_offsets rows inp Hb) as [HO1 HO2]. split.
  - intros [Hl [H|(offs & rest & E & H)]]; [congruence|]. split; [lia|]. exists offs, rest. apply HO2 in E. split; [exact E|].
    destruct E as (ob & -> & _ & _). apply bytes_app in Hb as [_ Hb].
    apply rdbind_panic in H as [H|(items & rest' & E & H)]; [left; now apply HI|]. right. rewrite E. split; [reflexivity|].
    assert (HF : Forall (fine item) items) by (apply (deser_typed item (last offs 0) rest items rest' Hb E)).
    destruct (mapM im items) as [its| |] eqn:EM.
    + cbn [rbind] in H. apply bind_panic in H as [H|(a & _ & H)]; [|discriminate]. apply split_offsets_panic in H. rewrite sorted_zero in H. exact H.
    + discriminate.
    + exfalso. clear -HF HM EM. revert EM. induction HF as [|v l Hv _ IH]; cbn [mapM]; [discriminate|].
      destruct (HM v Hv) as [a ->]. cbn [rbind]. destruct (mapM im l); cbn [rbind]; congruence.
  - intros [Hl (offs & rest & E & H)]. split; [lia|]. right. exists offs, rest. split; [now apply HO2|].
    destruct E as (ob & -> & _ & _). apply bytes_app in Hb as [_ Hb].
    apply rdbind_panic. destruct H as [H|[Hok HS]]; [left; now apply HI|].
    right. destruct (deser item (last offs 0) rest) as [[items rest']| |] eqn:E; try discriminate. exists items, rest'. split; [reflexivity|].
    assert (HF : Forall (fine item) items) by (apply (deser_typed item (last offs 0) rest items rest' Hb E)).
    assert (exists its, mapM im items = Ok its) as [its ->].
    { clear -HF HM. induction HF as [|v l Hv _ [its IH]]; cbn [mapM]; [eauto|]. destruct (HM v Hv) as [a ->]. rewrite IH. cbn [rbind]. eauto. }
    cbn [rbind]. apply bind_panic. left. apply split_offsets_panic. now rewrite sorted_zero.
Qed.

Lemma check_check {A} rows (r : rd A) : check_rows rows (check_rows rows r) = check_rows rows r.
Proof. unfold check_rows. now destruct (MAX_STRING_SIZE <? rows). Qed.
Lemma generic_ext {A} (f g : N -> rd (list value)) (im : value -> res A) mk rows : (forall n, f n = g n) ->
  forall inp, deser_array_generic f im mk rows inp = deser_array_generic g im mk rows inp.
Proof. intros H inp. unfold deser_array_generic. destruct (rows =? 0); [reflexivity|]. unfold rdbind. destruct (read_n _ _ inp) as [[offs r]| |]; cbn [rbind]; [|reflexivity..]. now rewrite H. Qed.
Lemma check_ext {A} rows (f g : rd A) inp : f inp = g inp -> check_rows rows f inp = check_rows rows g inp.
Proof. unfold check_rows. now destruct (MAX_STRING_SIZE <? rows). Qed.

Lemma point_np rows inp : deser TPoint rows inp <> Panic.
Proof. now apply (deser_no_panic TPoint). Qed.
Lemma ring_iff : panics_iff (deser TRing) ring_panics.
Proof.
  intros rows inp Hb.
  replace (deser TRing rows inp) with (check_rows rows (deser_array_generic (deser TPoint) as_point VRing rows) inp).
  - apply (array_panics_iff TPoint as_point VRing (fun _ _ => False)).
    + intros n i _. split; [apply point_np|tauto].
    + intros v [Ht _]. destruct v; try discriminate Ht. cbn [as_point]. eauto.
    + exact Hb.
  - cbn [deser]. unfold deser_ring. rewrite check_check. apply check_ext, generic_ext. intros n. cbn [deser]. unfold deser_point. apply check_check.
Qed.
Lemma polygon_iff : panics_iff (deser TPolygon) polygon_panics.
Proof.
  intros rows inp Hb.
  replace (deser TPolygon rows inp) with (check_rows rows (deser_array_generic (deser TRing) as_ring VPolygon rows) inp).
  - apply (array_panics_iff TRing as_ring VPolygon ring_panics).
    + exact ring_iff.
    + intros v [Ht _]. destruct v; try discriminate Ht. cbn [as_ring]. eauto.
    + exact Hb.
  - cbn [deser]. unfold deser_polygon. rewrite check_check. apply check_ext, generic_ext. intros n. cbn [deser]. unfold deser_ring. apply check_check.
Qed.
Lemma multi_iff : panics_iff (deser TMultiPolygon) multi_panics.
Proof.
  intros rows inp Hb.
  replace (deser TMultiPolygon rows inp) with (check_rows rows (deser_array_generic (deser TPolygon) as_polygon VMultiPolygon rows) inp).
  - apply (array_panics_iff TPolygon as_polygon VMultiPolygon polygon_panics).
    + exact polygon_iff.
    + intros v [Ht _]. destruct v; try discriminate Ht. cbn [as_polygon]. eauto.
    + exact Hb.
  - cbn [deser]. unfold deser_multipolygon. rewrite check_check. apply check_ext, generic_ext. intros n. cbn [deser]. unfold deser_polygon. apply check_check.
Qed.

Definition columns_panic (rows : N) := fix go (ts : list ty) (inp : list N) : Prop :=
  match ts with
  | [] => False
  | t1 :: ts' => column_panics t1 rows inp \/ exists col rest, deser t1 rows inp = Ok (col, rest) /\ go ts' rest
  end.

Lemma local_rest {A} (r : rd A) inp a rest : local r -> r inp = Ok (a, rest) -> bytes_ok inp -> bytes_ok rest.
Proof. intros HL E Hb. destruct (HL inp a rest E) as (used & -> & _). now apply bytes_app in Hb. Qed.

Theorem deser_panics_iff t : validate t = true -> lengths_ok t = true -> panics_iff (deser t) (column_panics t).
Proof.
  induction t as [t Hl|t IH IHs|t IH|ts IH|t IH|k v IHk IHv] using ty_ind_strip; intros Hv HLN.
  - destruct (offset_free t) eqn:Ho.
    + intros rows inp _. split; [intros H; now apply (deser_no_panic t Hv Ho HLN) in H|]. destruct t; try discriminate Hl; try discriminate Ho; intros [].
    + destruct t; try discriminate Hl; try discriminate Ho; [apply ring_iff|apply polygon_iff|apply multi_iff].
  - intros rows inp _. split; [|intros []]. intros H. exfalso. revert H. apply (deser_no_panic (TLowCard t) Hv).
    cbn [validate] in Hv. apply andb_true_iff in Hv as [H1 _]. cbn [offset_free]. destruct t; try discriminate H1; try reflexivity.
    cbn [strip_null] in H1. cbn [offset_free]. destruct t; try discriminate H1; reflexivity. exact HLN.
  - cbn [validate] in Hv. apply (array_panics_iff t Ok VArray _ (IH Hv HLN)). eauto.
  - cbn [validate lengths_ok] in Hv, HLN. intros rows inp Hb. rewrite deser_tuple_eq, check_panic.
    change (column_panics (TTuple ts) rows inp) with (rows <= 2 ^ 30 /\ columns_panic rows ts inp).
    enough (G : forall acc, length acc = N.to_nat rows -> deser_cols rows ts acc inp = Panic <-> columns_panic rows ts inp).
    { specialize (G (repeat [] (N.to_nat rows)) (repeat_length _ _)). rewrite rdbind_panic. rewrite G.
      split; intros [H1 H2]; (split; [exact H1|]); [destruct H2 as [H2|(a & r & _ & H2)]; [exact H2|discriminate]|now left]. }
    revert inp Hb. induction IH as [|t ts Ht _ IHts]; intros inp Hb acc HL; [cbn; split; [discriminate|tauto]|].
    cbn [forallb] in Hv, HLN. apply andb_true_iff in Hv as [V1 V2]. apply andb_true_iff in HLN as [N1 N2]. cbn [deser_cols columns_panic]. fold (deser_cols rows). fold (columns_panic rows).
    rewrite rdbind_panic, (Ht V1 N1 rows inp Hb).
    assert (GG : forall col rest, deser t rows inp = Ok (col, rest) -> ((fun i => tuples' <- push_column acc col ;; deser_cols rows ts tuples' i) rest = Panic <-> columns_panic rows ts rest)).
    { intros col rest E. assert (Hbr := local_rest _ _ _ _ (deser_local t rows) E Hb).
      apply deser_at_most in E. pose proof (push_column_no_panic acc col) as HPC. cbv beta.
      destruct (push_column acc col) as [acc'|e|] eqn:EP; cbn [rbind].
      - apply (IHts V2 N2 rest Hbr). apply push_column_length in EP. lia.
      - exfalso. clear -EP. revert col EP. induction acc as [|a acc IH]; intros [|c col]; cbn [push_column]; try discriminate.
        intros EP. destruct (push_column acc col) eqn:E; cbn [rbind] in EP; try discriminate. apply (IH col). congruence.
      - exfalso. apply HPC; [unfold lenN in E; lia|reflexivity]. }
    split; (intros [H|(col & rest & E & H)]; [now left|right; exists col, rest; split; [exact E|]]).
    + now apply (GG col rest E).
    + now apply (GG col rest E).
  - cbn [validate] in Hv. apply andb_true_iff in Hv as [H1 H2]. apply negb_true_iff in H1.
    intros rows inp Hb. cbn [deser column_panics]. rewrite check_panic, rdbind_panic. split.
    + intros [Hr [H|(m & rest & E & H)]]; [now apply np_exact in H|]. split; [exact Hr|]. apply read_exact_ok in E as [-> L].
      apply bytes_app in Hb as [_ Hb]. exists m, rest. split; [reflexivity|]. split; [exact L|]. apply (IH H2 HLN rows rest Hb).
      apply rdbind_panic in H as [H|(out & r & E & H)]; [exact H|]. exfalso. apply deser_rows in E; [|destruct t; try discriminate H1; reflexivity].
      apply bind_panic in H as [H|(a & _ & H)]; [|discriminate]. revert H. apply apply_mask_no_panic. unfold lenN in L. lia.
    + intros [Hr (m & rest & -> & L & H)]. split; [exact Hr|]. right. exists m, rest. split; [now apply read_exact_app'|].
      apply bytes_app in Hb as [_ Hb]. apply rdbind_panic. left. now apply (IH H2 HLN rows rest Hb).
  - cbn [validate lengths_ok] in Hv, HLN. apply andb_true_iff in Hv as [Hv H2]. apply andb_true_iff in Hv as [_ H1]. apply andb_true_iff in HLN as [N1 N2].
    intros rows inp Hb. cbn [deser column_panics]. rewrite check_panic.
    destruct (N.eqb_spec rows 0) as [->|Hr]; [split; [intros [_ H]; discriminate|intros [H _]; lia]|].
    destruct (read_offsets rows inp Hb) as [HO1 HO2]. rewrite rdbind_panic. split.
    + intros [Hl [H|(offs & rest & E & H)]]; [congruence|]. split; [lia|]. exists offs, rest. apply HO2 in E. split; [exact E|].
      destruct E as (ob & -> & _ & _). apply bytes_app in Hb as [_ Hb]. cbv zeta in H.
      apply rdbind_panic in H as [H|(ks & r1 & E1 & H)]; [left; now apply (IHk H1 N1)|]. right. exists ks, r1. split; [exact E1|].
      destruct (N.eqb_spec (lenN ks) (last offs 0)) as [L1|L1]; [|now left]. cbn [negb] in H. right.
      assert (Hb1 := local_rest _ _ _ _ (deser_local k _) E1 Hb).
      apply rdbind_panic in H as [H|(vs & r2 & E2 & H)]; [left; now apply (IHv H2 N2)|]. right. exists vs, r2. split; [exact E2|].
      destruct (N.eqb_spec (lenN vs) (last offs 0)) as [L2|L2]; [|now left]. cbn [negb] in H. right.
      apply bind_panic in H as [H|(a & _ & H)]; [|discriminate]. apply split_map_panic in H; [|congruence]. rewrite L1 in H. exact H.
    + intros [Hl (offs & rest & E & H)]. split; [lia|]. right. exists offs, rest. split; [now apply HO2|].
      destruct E as (ob & -> & _ & _). apply bytes_app in Hb as [_ Hb]. cbv zeta. apply rdbind_panic.
      destruct H as [H|(ks & r1 & E1 & H)]; [left; now apply (IHk H1 N1)|]. right. exists ks, r1. split; [exact E1|].
      destruct (N.eqb_spec (lenN ks) (last offs 0)) as [L1|L1]; [|reflexivity]. cbn [negb].
      destruct H as [H|H]; [contradiction|]. assert (Hb1 := local_rest _ _ _ _ (deser_local k _) E1 Hb).
      apply rdbind_panic. destruct H as [H|(vs & r2 & E2 & H)]; [left; now apply (IHv H2 N2)|]. right. exists vs, r2. split; [exact E2|].
      destruct (N.eqb_spec (lenN vs) (last offs 0)) as [L2|L2]; [|reflexivity]. cbn [negb].
      destruct H as [H|H]; [contradiction|]. apply bind_panic. left. apply split_map_panic; [congruence|]. now rewrite L1.
Qed.
