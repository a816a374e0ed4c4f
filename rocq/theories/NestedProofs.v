(** Structs of plain and nested fields: exactly which rows are read, and as what. *)
From Coq Require Import String Permutation.
From Verif Require Import Base Types Text RawRow Numeric Convert ConvertSpec ConvertSafe Migrate MigrateProofs Derive DeriveSpec DeriveProofs DeriveProofs2 DeriveProofs3 DeriveProofs4 NestedSpec.
Local Open Scope list_scope.
Local Open Scope N_scope.

Definition unflat (fs : fields) : Prop := forall f, In f fs -> flat_free (snd f) = true.
Lemma unflat_inactive fs f : unflat fs -> In f fs -> inactive f = i_skip_de (fst f).
Proof. intros U H. specialize (U f H). unfold inactive. destruct (snd f); cbn [is_flatten]; try apply orb_false_r. discriminate. Qed.
Lemma unflat_exists fs : unflat fs -> existsb (fun f => is_flatten (snd f)) fs = false.
Proof.
  intros U. induction fs as [|f fs IH]; [reflexivity|]. cbn [existsb]. rewrite IH by (intros g H; apply U; now right).
  pose proof (U f (or_introl eq_refl)) as F. destruct (snd f); cbn [is_flatten orb]; try reflexivity. discriminate.
Qed.
Lemma flat_count k : flat_free k = true -> exists n, kind_count k = Some n.
Proof.
  induction k as [r|fs IH|fs IH] using kind_ind'; intros F; [exists 1%nat; reflexivity| |discriminate]. cbn [flat_free] in F. rewrite kind_count_nested.
  rewrite unflat_exists by (intros f H; exact (proj1 (forallb_forall _ _) F f H)).
  induction IH as [|[i k] fs I1 _ IHf]; [exists 0%nat; reflexivity|]. cbn [forallb] in F. apply andb_true_iff in F as [F1 F2]. destruct (IHf F2) as [n E]. cbn [counts]. unfold counts in *. rewrite E.
  destruct (i_skip_ser i); [eauto|]. destruct (I1 F1) as [m M]. cbn [snd] in M. rewrite M. eauto.
Qed.
Lemma width_count k : flat_free k = true -> kind_count k = Some (width k).
Proof.
  intros F. destruct (flat_count k F) as [n E]. rewrite E. f_equal. destruct k as [r|fs|fs]; [cbn [kind_count] in E; injection E as <-; reflexivity| |discriminate].
  cbn [width]. symmetry. now apply column_count_names.
Qed.

(** ** Which field a column is for *)
Fixpoint slots_from (gs : fields) (s : nat) : list nat :=
  match gs with [] => [] | f :: r => (if i_skip_de (fst f) then [] else repeat s (width (snd f))) ++ slots_from r (S s) end.
Lemma slots_eq fs : slots fs = slots_from fs 0.
Proof.
  unfold slots. assert (G : forall gs pre, fs = pre ++ gs ->
    flat_map (fun j => match nth_error fs j with Some f => if i_skip_de (fst f) then [] else repeat j (width (snd f)) | None => [] end) (seq (List.length pre) (List.length gs)) = slots_from gs (List.length pre)).
  { induction gs as [|g gs IH]; intros pre E; [reflexivity|]. cbn [List.length seq flat_map slots_from].
    assert (Hg : nth_error fs (List.length pre) = Some g) by (rewrite E, nth_error_app2, Nat.sub_diag by lia; reflexivity). rewrite Hg. f_equal.
    specialize (IH (pre ++ [g])). rewrite app_length in IH. cbn [List.length] in IH. rewrite Nat.add_1_r in IH. apply IH. rewrite <- app_assoc. exact E. }
  exact (G fs [] eq_refl).
Qed.
Lemma nth_repeat {A} (x : A) n i : (i < n)%nat -> nth_error (repeat x n) i = Some x.
Proof. revert i; induction n as [|n IH]; intros [|i] H; try lia; cbn [repeat nth_error]; [reflexivity|]. apply IH. lia. Qed.
Lemma find_index_slots fs : unflat fs -> forall s a idx, (a <= idx)%nat -> find_index fs s a idx = nth_error (slots_from fs s) (idx - a).
Proof.
  induction fs as [|f fs IH]; intros U s a idx H; cbn [find_index slots_from]; [now destruct (idx - a)%nat|].
  rewrite (unflat_inactive (f :: fs) f U (or_introl eq_refl)). assert (U' : unflat fs) by (intros g G; apply U; now right). destruct (i_skip_de (fst f)); [now apply IH|].
  assert (W : match snd f with KPlain _ => 1%nat | k => match kind_count k with Some n => n | None => 0%nat end end = width (snd f)).
  { pose proof (width_count (snd f) (U f (or_introl eq_refl))) as E. destruct (snd f); [reflexivity|rewrite E; reflexivity|rewrite E; reflexivity]. }
  cbv zeta. rewrite W. destruct (Nat.leb_spec a idx) as [_|]; [|lia]. cbn [andb]. destruct (Nat.ltb_spec idx (a + width (snd f))) as [L|L].
  - rewrite nth_error_app1 by (rewrite repeat_length; lia). symmetry. apply nth_repeat. lia.
  - rewrite nth_error_app2 by (rewrite repeat_length; lia). rewrite repeat_length. rewrite IH by (auto; lia). f_equal. lia.
Qed.
Lemma find_name_meant fs n : unflat fs -> find_name fs 0 n = find (fun j => match nth_error fs j with Some f => meant f n | None => false end) (seq 0 (List.length fs)).
Proof.
  intros U. assert (G : forall gs pre, fs = pre ++ gs -> find_name gs (List.length pre) n = find (fun j => match nth_error fs j with Some f => meant f n | None => false end) (seq (List.length pre) (List.length gs))).
  { induction gs as [|g gs IH]; intros pre E; [reflexivity|]. cbn [find_name List.length seq find].
    assert (Hg : nth_error fs (List.length pre) = Some g) by (rewrite E, nth_error_app2, Nat.sub_diag by lia; reflexivity). rewrite Hg.
    assert (N : named g n = meant g n) by (unfold named, meant; rewrite (unflat_inactive fs g U) by (eapply nth_error_In; eauto); reflexivity). rewrite N. destruct (meant g n); [reflexivity|].
    specialize (IH (pre ++ [g])). rewrite app_length in IH. cbn [List.length] in IH. rewrite Nat.add_1_r in IH. apply IH. rewrite <- app_assoc. exact E. }
  exact (G fs [] eq_refl).
Qed.
Lemma dest_assigned fs idx n : unflat fs -> dest fs idx n = assigned fs idx n.
Proof.
  intros U. unfold dest, assigned. rewrite (find_name_meant fs n U). destruct (find _ _) as [j|]; [reflexivity|]. rewrite (unflat_exists fs U), (find_index_slots fs U) by lia.
  rewrite Nat.sub_0_r, slots_eq. destruct (nth_error (slots_from fs 0) idx); reflexivity.
Qed.
Lemma mine_given fs j cols : unflat fs -> mine fs j 0 cols = given fs j cols.
Proof.
  intros U. unfold given. generalize 0%nat. induction cols as [|c cols IH]; intros s; [reflexivity|]. cbn [mine List.length seq combine flat_map fst snd].
  rewrite (dest_assigned fs s (cname c) U). destruct (assigned fs s (cname c)) as [[j' b]|]; [|apply IH]. destruct (j' =? j)%nat; cbn [app]; [f_equal|]; apply IH.
Qed.

(** ** A nested field *)
Lemma skipn_dotted n r : skipn (List.length (dotted n)) (dotted n ++ r) = r.
Proof. rewrite skipn_app, skipn_all, Nat.sub_diag. reflexivity. Qed.
Definition well_named (name : text) (bc : bool * column) : Prop := fst bc = true -> prefix (dotted name) (cname (snd bc)) = true.
Lemma put_nested_iff i nf L : Forall (well_named (i_name i)) L -> forall c0 n0 a,
  (put_all (i, KNested nf) L (ANest c0 n0) = Ok a <->
   exists table n, Forall2 (inside (i_name i)) L table /\ Forall (fun e => List.length (snd e) = n) table /\
     (c0 <> [] -> n = n0) /\ (table = [] -> n = n0) /\ a = ANest (c0 ++ map stripped table) n).
Proof.
  induction 1 as [|[b [[cn t] v]] L W _ IH]; intros c0 n0 a.
  - cbn [put_all]. split.
    + intros E. injection E as <-. exists [], n0. rewrite app_nil_r. split; [constructor|]. split; [constructor|]. auto.
    + intros (table & n & F & _ & _ & H & ->). inversion F; subst. cbn [map]. rewrite app_nil_r. f_equal. f_equal. symmetry. now apply H.
  - cbn [put_all put_column snd fst]. split.
    + intros E. destruct v; try discriminate. rename l into vs. destruct (match c0 with [] => true | _ => (n0 =? List.length vs)%nat end) eqn:Len; [|discriminate].
      assert (exists t', t = TArray t') as [t' ->] by (destruct t; try discriminate; eauto). cbn [rbind] in E.
      apply IH in E as (table & n & F & Ln & H1 & H2 & ->). assert (N : n = List.length vs) by (apply H1; destruct c0; discriminate).
      exists (((if b then skipn (List.length (dotted (i_name i))) cn else cn), t', vs) :: table), n.
      split; [constructor; [|exact F]|].
      * unfold inside. cbn [fst snd cname]. split; [reflexivity|]. split; [reflexivity|].
        destruct b; [|reflexivity]. specialize (W eq_refl). cbn [snd cname fst] in W. apply prefix_spec in W as [r ->]. rewrite skipn_dotted. unfold dotted. rewrite <- app_assoc. reflexivity.
      * split; [constructor; [cbn [snd]; congruence|exact Ln]|]. split; [intros C; destruct c0 as [|d c0]; [congruence|apply Nat.eqb_eq in Len; congruence]|]. split; [discriminate|].
        rewrite <- app_assoc. reflexivity.
    + intros (table & n & F & Ln & H1 & H2 & ->). inversion F as [|? e ? table' I0 F']; subst. destruct I0 as (It & Iv & In0). cbn [fst snd cname] in It, Iv, In0. subst t v cn. destruct e as [[m u] vs]. cbn [fst snd] in *.
      inversion Ln as [|? ? L1 L2]; subst. cbn [snd] in *.
      assert (T : match c0 with [] => true | _ => (n0 =? List.length vs)%nat end = true) by (destruct c0; [reflexivity|]; apply Nat.eqb_eq; symmetry; now apply H1). rewrite T. cbn [rbind].
      apply IH. exists table', (List.length vs). split; [exact F'|]. split; [exact L2|]. split; [reflexivity|]. split; [reflexivity|].
      rewrite <- app_assoc. cbn [map app stripped fst snd]. do 4 f_equal. destruct b; [|reflexivity]. unfold stripped. cbn [fst snd]. replace (i_name i ++ 46 :: m) with (dotted (i_name i) ++ m) by (unfold dotted; now rewrite <- app_assoc). now rewrite skipn_dotted.
Qed.

(** Row after row. *)
Lemma mapM_nth {A} (g : nat -> res A) : forall n s rows, mapM g (seq s n) = Ok rows <-> List.length rows = n /\ forall k row, nth_error rows k = Some row -> g (s + k)%nat = Ok row.
Proof.
  induction n as [|n IH]; intros s rows; cbn [seq mapM].
  - split; [intros E; injection E as <-; split; [reflexivity|]; intros [|k] row; discriminate|]. intros [L _]. destruct rows; [reflexivity|discriminate].
  - split.
    + intros E. destruct (g s) as [x|e|] eqn:G; cbn [rbind] in E; try discriminate. destruct (mapM g (seq (S s) n)) as [xs|e|] eqn:M; cbn [rbind] in E; try discriminate. injection E as <-.
      apply IH in M as [L H]. split; [cbn [List.length]; congruence|]. intros [|k] row R; cbn [nth_error] in R; [injection R as <-; now rewrite Nat.add_0_r|]. rewrite <- (H k row R). f_equal. lia.
    + intros [L H]. destruct rows as [|x rows]; [discriminate|]. pose proof (H 0%nat x eq_refl) as H0. rewrite Nat.add_0_r in H0. rewrite H0. cbn [rbind].
      assert (M : mapM g (seq (S s) n) = Ok rows). { apply IH. split; [cbn [List.length] in L; lia|]. intros k row R. rewrite <- (H (S k) row R). f_equal. lia. }
      rewrite M. reflexivity.
Qed.
Lemma nested_row_is table k : Forall (fun e => (k < List.length (snd e))%nat) table -> nested_row (map stripped table) k = Ok (row_of table k).
Proof.
  unfold nested_row, row_of. induction 1 as [|[[c t] vs] T' H _ IH]; [reflexivity|]. cbn [map mapM stripped fst snd] in *. rewrite (nth_error_nth' vs VNull H). cbn [rbind]. rewrite IH. reflexivity.
Qed.
Lemma rect1_rows nf table n o : table <> [] -> Forall (fun e => List.length (snd e) = n) table ->
  (rect1 (KNested nf) (ANest (map stripped table) n) = Ok o <->
   exists rows, o = Some (SVec rows) /\ List.length rows = n /\ forall k row, nth_error rows k = Some row -> kind_deserialize (KNested nf) (row_of table k) = Ok row).
Proof.
  intros NE Ln. destruct table as [|e table]; [congruence|]. cbn [rect1 map]. change (stripped e :: map stripped table) with (map stripped (e :: table)).
  assert (Each : forall k, (k < n)%nat -> (r <- nested_row (map stripped (e :: table)) k ;; kind_deserialize (KNested nf) r) = kind_deserialize (KNested nf) (row_of (e :: table) k)).
  { intros k L. rewrite nested_row_is; [reflexivity|]. eapply Forall_impl; [|exact Ln]. cbv beta. intros d Hd. lia. }
  split.
  - intros E. match type of E with rbind ?m _ = _ => destruct m as [rows|x|] eqn:M; cbn [rbind] in E; try discriminate end. injection E as <-. apply mapM_nth in M as [L H]. exists rows. split; [reflexivity|]. split; [exact L|].
    intros k row R. rewrite <- Each; [exact (H k row R)|]. rewrite <- L. apply nth_error_Some. congruence.
  - intros (rows & -> & L & H). match goal with |- rbind ?m _ = _ => assert (M : m = Ok rows) end.
    { apply mapM_nth. split; [exact L|]. intros k row R. cbn [Nat.add]. rewrite Each; [exact (H k row R)|]. rewrite <- L. apply nth_error_Some. congruence. }
    rewrite M. reflexivity.
Qed.

(** ** All fields *)
Definition ext1 (f : info * kind) (o : option sval) (y : sval) : Prop :=
  if inactive f then y = SSub [] else match o with Some z => y = z | None => i_default (fst f) = Some y end.
Definition bld1 (f : info * kind) (y x : sval) : Prop := if i_skip_de (fst f) then i_default (fst f) = Some x else x = y.
Definition cellx (f : info * kind) (a : acc) (x : sval) : Prop := exists o y, rect1 (snd f) a = Ok o /\ ext1 f o y /\ bld1 f y x.
Lemma rectify_iff fs : forall accs vals, List.length accs = List.length fs -> (rectify fs accs = Ok vals <-> all3 (fun f a o => rect1 (snd f) a = Ok o) fs accs vals).
Proof.
  induction fs as [|[i k] fs IH]; intros [|a accs] vals L; try discriminate; cbn [rectify].
  - split; [intros E; injection E as <-; exact I|]. destruct vals; [reflexivity|intros []].
  - cbn [List.length] in L. destruct vals as [|o vals].
    + split; [|intros []]. intros E. exfalso. destruct (rect1 k a); cbn [rbind] in E; try discriminate. destruct (rectify fs accs); cbn [rbind] in E; discriminate.
    + cbn [all3 snd]. rewrite <- (IH accs vals) by lia. destruct (rect1 k a) as [z|e|]; cbn [rbind]; [|split; [discriminate|intros [E _]; discriminate]..].
      destruct (rectify fs accs) as [zs|e|]; cbn [rbind]; [|split; [discriminate|intros [_ E]; discriminate]..]. split; [intros E; injection E as -> ->; auto|intros [E F]; injection E as ->; injection F as ->; reflexivity].
Qed.
Lemma extract_iff fs : forall vals ys, List.length vals = List.length fs -> (extract fs vals = Ok ys <-> all3 ext1 fs vals ys).
Proof.
  induction fs as [|f fs IH]; intros [|o vals] ys L; try discriminate; cbn [extract].
  - split; [intros E; injection E as <-; exact I|]. destruct ys; [reflexivity|intros []].
  - cbn [List.length] in L.
    assert (X : forall y, (if inactive f then Ok (SSub []) else match o with Some x => Ok x | None => match i_default (fst f) with Some d => Ok d | None => Err (EMissingField (i_name (fst f))) end end) = Ok y <-> ext1 f o y).
    { intros y. unfold ext1. destruct (inactive f); [split; [intros E; injection E as <-; reflexivity|intros ->; reflexivity]|]. destruct o as [z|]; [split; [intros E; injection E as <-; reflexivity|intros ->; reflexivity]|].
      destruct (i_default (fst f)); split; try discriminate; intros E; injection E as ->; reflexivity. }
    destruct ys as [|y ys].
    + split; [|intros []]. intros E. exfalso. match type of E with rbind ?m _ = _ => destruct m; cbn [rbind] in E; try discriminate end. destruct (extract fs vals); cbn [rbind] in E; discriminate.
    + cbn [all3]. rewrite <- (IH vals ys) by lia. rewrite <- X. match goal with |- rbind ?m _ = _ <-> _ => destruct m as [z|e|] end; cbn [rbind]; [|split; [discriminate|intros [E _]; discriminate]..].
      destruct (extract fs vals) as [zs|e|]; cbn [rbind]; [|split; [discriminate|intros [_ E]; discriminate]..]. split; [intros E; injection E as -> ->; auto|intros [E F]; injection E as ->; injection F as ->; reflexivity].
Qed.
Lemma build_iff fs : unflat fs -> forall ys xs, List.length ys = List.length fs -> (build fs ys [] = Ok xs <-> all3 bld1 fs ys xs).
Proof.
  induction fs as [|[i k] fs IH]; intros U [|y ys] xs L; try discriminate; cbn [build].
  - split; [intros E; injection E as <-; exact I|]. destruct xs; [reflexivity|intros []].
  - cbn [List.length] in L. assert (U' : unflat fs) by (intros g G; apply U; now right). specialize (IH U').
    assert (K : (match k with
              | KFlatten fs1 => cm <- take_names (column_names fs1) [] ;; sub <- kind_deserialize k (fst cm) ;; zs <- build fs ys (snd cm) ;; Ok (SSub sub :: zs)
              | _ => zs <- build fs ys [] ;; Ok (y :: zs) end) = (zs <- build fs ys [] ;; Ok (y :: zs))).
    { destruct k; try reflexivity. pose proof (U _ (or_introl eq_refl)) as F. discriminate. }
    rewrite K. clear K. destruct xs as [|x xs].
    + split; [|intros []]. intros E. exfalso. destruct (i_skip_de i); [destruct (i_default i); [|discriminate]|]; destruct (build fs ys []); discriminate.
    + cbn [all3]. rewrite <- (IH ys xs) by lia. unfold bld1. cbn [fst]. destruct (i_skip_de i).
      * destruct (i_default i) as [d|]; [|split; [discriminate|intros [E _]; discriminate]]. destruct (build fs ys []) as [zs|e|]; cbn [rbind]; [|split; [discriminate|intros [_ E]; discriminate]..].
        split; [intros E; injection E as -> ->; auto|intros [E F]; injection E as ->; injection F as ->; reflexivity].
      * destruct (build fs ys []) as [zs|e|]; cbn [rbind]; [|split; [discriminate|intros [_ E]; discriminate]..]. split; [intros E; injection E as -> ->; auto|intros [-> F]; injection F as ->; reflexivity].
Qed.
Lemma rest_iff fs : unflat fs -> forall accs xs, List.length accs = List.length fs ->
  ((vals <- rectify fs accs ;; ys <- extract fs vals ;; build fs ys []) = Ok xs <-> all3 cellx fs accs xs).
Proof.
  intros U accs xs L. split.
  - intros E. destruct (rectify fs accs) as [vals|e|] eqn:R; cbn [rbind] in E; try discriminate. destruct (extract fs vals) as [ys|e|] eqn:X; cbn [rbind] in E; try discriminate.
    apply rectify_iff in R; [|exact L]. pose proof (all3_length _ _ _ _ R) as [_ Lv]. apply extract_iff in X; [|exact Lv]. pose proof (all3_length _ _ _ _ X) as [_ Ly]. apply build_iff in E; [|exact U|exact Ly].
    pose proof (all3_length _ _ _ _ E) as [_ Lx]. apply all3_of_nth; [exact L|exact Lx|]. intros j f a x Hf Ha Hx.
    destruct (all3_nth _ _ _ _ R j f Hf) as (a' & o & Ha' & Ho & P1). destruct (all3_nth _ _ _ _ X j f Hf) as (o' & y & Ho' & Hy & P2). destruct (all3_nth _ _ _ _ E j f Hf) as (y' & x' & Hy' & Hx' & P3).
    exists o, y. assert (a' = a) as -> by congruence. assert (o' = o) as -> by congruence. assert (y' = y) as -> by congruence. assert (x' = x) as -> by congruence. auto.
  - intros H. assert (G : exists vals ys, all3 (fun f a o => rect1 (snd f) a = Ok o) fs accs vals /\ all3 ext1 fs vals ys /\ all3 bld1 fs ys xs).
    { clear U L. revert accs xs H. induction fs as [|f fs IH]; intros [|a accs] [|x xs] H; try (destruct H as []; fail); [exists [], []; repeat split|].
      destruct H as [(o & y & P1 & P2 & P3) H]. destruct (IH accs xs H) as (vals & ys & Q1 & Q2 & Q3). exists (o :: vals), (y :: ys). cbn [all3]. auto. }
    destruct G as (vals & ys & R & X & B). pose proof (all3_length _ _ _ _ R) as [_ Lv]. pose proof (all3_length _ _ _ _ X) as [_ Ly].
    apply rectify_iff in R; [|exact L]. rewrite R. cbn [rbind]. apply extract_iff in X; [|exact Lv]. rewrite X. cbn [rbind]. now apply build_iff.
Qed.

(** ** The theorem *)
Definition field_is (L : list (bool * column)) (f : info * kind) (y : sval) : Prop :=
  if i_skip_de (fst f) then i_default (fst f) = Some y else
  match snd f with
  | KPlain r =>
      match L with
      | [(_, (_, t, v))] => exists z, from_sql r (strip_low_cardinality t) v = Ok z /\ y = SPlain z
      | [] => i_default (fst f) = Some y
      | _ => False
      end
  | _ =>
      exists rows table, y = SVec rows /\ table <> [] /\ Forall2 (inside (i_name (fst f))) L table /\
        Forall (fun e => List.length (snd e) = List.length rows) table /\
        forall n row, nth_error rows n = Some row -> kind_exact (snd f) (row_of table n) row
  end.
Definition field_exact (fs : fields) (cols : list column) (j : nat) (f : info * kind) (y : sval) : Prop := field_is (given fs j cols) f y.
Lemma kind_exact_iff fs cols xs : kind_exact (KNested fs) cols xs <->
  List.length xs = List.length fs /\ forall j f x, nth_error fs j = Some f -> nth_error xs j = Some x -> field_exact fs cols j f x.
Proof.
  cbn [kind_exact].
  match goal with |- ?F 0%nat fs xs <-> _ => set (each := F) end.
  assert (G : forall gs j ys, each j gs ys <-> List.length ys = List.length gs /\ forall m f x, nth_error gs m = Some f -> nth_error ys m = Some x -> field_exact fs cols (j + m)%nat f x).
  { induction gs as [|[i k] gs IH]; intros j [|y ys].
    - split; [intros _; split; [reflexivity|]; intros [|m]; discriminate|]. intros _. exact I.
    - split; [intros []|]. intros [L _]. discriminate.
    - split; [intros []|]. intros [L _]. discriminate.
    - assert (E : each j ((i, k) :: gs) (y :: ys) <-> field_exact fs cols j (i, k) y /\ each (S j) gs ys) by (unfold each, field_exact, field_is; reflexivity).
      rewrite E. rewrite IH. split.
      + intros [H [L R]]. split; [cbn [List.length]; congruence|]. intros [|m] f x Hf Hx; cbn [nth_error] in Hf, Hx; [injection Hf as <-; injection Hx as <-; now rewrite Nat.add_0_r|]. rewrite <- Nat.add_succ_comm. now apply R.
      + intros [L R]. split; [specialize (R 0%nat (i, k) y eq_refl eq_refl); now rewrite Nat.add_0_r in R|]. split; [cbn [List.length] in L; lia|]. intros m f x Hf Hx. rewrite Nat.add_succ_comm. now apply (R (S m)). }
  exact (G fs 0%nat xs).
Qed.
Lemma given_named fs j cols f : nth_error fs j = Some f -> (exists nf, snd f = KNested nf) -> Forall (well_named (i_name (fst f))) (given fs j cols).
Proof.
  intros Hf [nf K]. apply Forall_forall. intros [b c] H B. cbn [fst] in B. subst b. unfold given in H. apply in_flat_map in H as ([idx c'] & _ & H). cbn [fst snd] in H.
  unfold assigned in H. destruct (find _ _) as [j'|] eqn:F.
  - destruct (Nat.eqb_spec j' j) as [->|]; [|destruct H]. destruct H as [H|[]]. injection H as ->. apply find_some in F as [_ F]. rewrite Hf in F. unfold meant in F. rewrite K in F. apply andb_true_iff in F as [_ F]. exact F.
  - destruct (nth_error (slots fs) idx) as [j'|]; cbn [option_map] in H; [|destruct H]. destruct (j' =? j)%nat; [|destruct H]. destruct H as [H|[]]. discriminate.
Qed.

Definition exact_for (k : kind) : Prop := flat_free k = true -> forall cols xs, kind_deserialize k cols = Ok xs <-> kind_exact k cols xs.
Lemma field_is_iff L f x : flat_free (snd f) = true -> exact_for (snd f) -> ((exists nf, snd f = KNested nf) -> Forall (well_named (i_name (fst f))) L) ->
  ((exists a, put_all f L (acc0 f) = Ok a /\ cellx f a x) <-> field_is L f x).
Proof.
  intros FF IH WN. assert (A : inactive f = i_skip_de (fst f)) by (unfold inactive; destruct (snd f); [apply orb_false_r..|discriminate]).
  unfold acc0, field_is, cellx, ext1, bld1. rewrite A. destruct (i_skip_de (fst f)) eqn:SD.
  - assert (Skip : forall M : list (bool * column), put_all f M ASkip = Ok ASkip).
    { induction M as [|[b [[n t] v]] M IHL]; [reflexivity|]. cbn [put_all]. unfold put_column. destruct (snd f); exact IHL. }
    rewrite Skip. split; [intros (a & _ & o & y & _ & _ & H); exact H|]. intros H. exists ASkip. split; [reflexivity|]. exists None, (SSub []). cbn [rect1]. auto.
  - destruct (snd f) as [r|nf|ff] eqn:K; [| |discriminate].
    + split.
      * intros (a & P & o & y & R & X & ->). apply (put_all_plain f r _ _ K) in P as [[-> ->]|(b & n & t & v & z & -> & Fr & ->)]; cbn [rect1 option_map] in R; injection R as <-; [exact X|]. subst y. eauto.
      * intros H. destruct L as [|[b [[n t] v]] [|d L]].
        -- exists (ACell None). split; [reflexivity|]. exists None, x. cbn [rect1 option_map]. auto.
        -- destruct H as (z & Fr & ->). exists (ACell (Some z)). split; [apply (put_all_plain f r _ _ K); right; exists b, n, t, v, z; auto|]. exists (Some (SPlain z)), (SPlain z). cbn [rect1 option_map]. auto.
        -- destruct H.
    + destruct f as [i k]. cbn [snd fst] in *. subst k. pose proof (WN (ex_intro _ nf eq_refl)) as W. split.
      * intros (a & P & o & y & R & X & ->). apply (put_nested_iff i nf _ W) in P as (table & n & F & Ln & _ & _ & ->). cbn [app] in R.
        destruct (list_eq_dec (fun a b : unit => match a, b with tt, tt => left eq_refl end) (map (fun _ => tt) table) []) as [Em|NE0].
        { apply map_eq_nil in Em. subst table. cbn [map rect1] in R. destruct (kind_deserialize (KNested nf) []); discriminate. }
        assert (NE : table <> []) by (intros ->; now apply NE0). apply (rect1_rows nf table n o NE Ln) in R as (rows & -> & Lr & H). subst y n. exists rows, table. split; [reflexivity|]. split; [exact NE|]. split; [exact F|]. split; [exact Ln|].
        intros m row Hr. apply (IH FF). now apply H.
      * intros (rows & table & -> & NE & F & Ln & H). exists (ANest (map stripped table) (List.length rows)). split.
        -- apply (put_nested_iff i nf _ W). exists table, (List.length rows). split; [exact F|]. split; [exact Ln|]. split; [congruence|]. split; [contradiction|reflexivity].
        -- exists (Some (SVec rows)), (SVec rows). split; [|auto]. apply (rect1_rows nf table _ _ NE Ln). exists rows. split; [reflexivity|]. split; [reflexivity|]. intros m row Hr. apply (IH FF). now apply H.
Qed.

Lemma field_iff fs cols j f x : unflat fs -> exact_for (snd f) -> nth_error fs j = Some f ->
  ((exists a, put_all f (given fs j cols) (acc0 f) = Ok a /\ cellx f a x) <-> field_exact fs cols j f x).
Proof.
  intros U IH Hf. apply field_is_iff; [apply U; eapply nth_error_In; eauto|exact IH|]. now apply given_named.
Qed.

Lemma exact_all k : exact_for k.
Proof.
  induction k as [r|fs IH|fs IH] using kind_ind'; intros FF cols xs; [split; [discriminate|intros []]| |discriminate]. cbn [flat_free] in FF.
  assert (U : unflat fs) by (intros f H; exact (proj1 (forallb_forall _ _) FF f H)). rewrite kind_exact_iff. rewrite kind_deserialize_eq by eauto. cbn [inner]. unfold gather.
  assert (SK : forallb size_known fs = true).
  { apply forallb_forall. intros f H. unfold size_known. apply orb_true_iff. right. pose proof (U f H) as F. destruct (snd f) as [r|nf|ff]; try reflexivity. unfold column_count. now rewrite (width_count _ F). }
  rewrite SK. assert (PF : pull_flatten fs cols [] = Ok (cols, [])).
  { clear - U. induction fs as [|[i k] fs IHf]; [reflexivity|]. cbn [pull_flatten]. destruct k; [apply IHf; intros g G; apply U; now right|apply IHf; intros g G; apply U; now right|]. pose proof (U _ (or_introl eq_refl)) as F. discriminate. }
  rewrite PF. cbn [rbind fst snd]. assert (L0 : List.length (map acc0 fs) = List.length fs) by apply map_length.
  assert (St : forall accs, settled fs 0 cols (map acc0 fs) accs <-> List.length accs = List.length fs /\ forall j f a, nth_error fs j = Some f -> nth_error accs j = Some a -> put_all f (given fs j cols) (acc0 f) = Ok a).
  { intros accs. unfold settled. split; intros [L H]; (split; [exact L|]).
    - intros j f a Hf Ha. destruct (H j f (acc0 f) Hf) as (a' & Ha' & E); [now rewrite nth_error_map, Hf|]. rewrite (mine_given fs j cols U) in E. congruence.
    - intros j f a Hf Ha. rewrite nth_error_map, Hf in Ha. cbn [option_map] in Ha. injection Ha as <-. destruct (nth_error accs j) as [a'|] eqn:Ha'; [|apply nth_error_None in Ha'; assert (j < List.length fs)%nat by (apply nth_error_Some; congruence); lia].
      exists a'. split; [reflexivity|]. rewrite (mine_given fs j cols U). now apply H. }
  assert (FI : forall j f x, nth_error fs j = Some f -> ((exists a, put_all f (given fs j cols) (acc0 f) = Ok a /\ cellx f a x) <-> field_exact fs cols j f x)).
  { intros j f x Hf. apply field_iff; [exact U| |exact Hf]. apply (proj1 (Forall_forall _ _) IH). eapply nth_error_In; eauto. }
  split.
  - intros E. destruct (match_keys fs 0 cols (map acc0 fs)) as [accs|e|] eqn:M; cbn [rbind fst snd] in E; try discriminate. apply (match_keys_iff fs cols 0 _ accs L0) in M. apply St in M as [La H].
    apply (rest_iff fs U accs xs La) in E. destruct (all3_length _ _ _ _ E) as [_ Lx]. split; [exact Lx|]. intros j f x Hf Hx. apply (FI j f x Hf).
    destruct (all3_nth _ _ _ _ E j f Hf) as (a & x' & Ha & Hx' & C). assert (x' = x) as -> by congruence. exists a. split; [now apply (H j f a)|exact C].
  - intros [Lx H].
    assert (Ch : exists accs, List.length accs = List.length fs /\ forall j f x a, nth_error fs j = Some f -> nth_error xs j = Some x -> nth_error accs j = Some a -> put_all f (given fs j cols) (acc0 f) = Ok a /\ cellx f a x).
    { apply (choose (fun j f x a => put_all f (given fs j cols) (acc0 f) = Ok a /\ cellx f a x) fs xs (map (fun _ => []) fs) Lx (map_length _ _)). intros j f x _ Hf Hx _. apply (FI j f x Hf). now apply H. }
    destruct Ch as (accs & La & Ha).
    assert (Xj : forall j f, nth_error fs j = Some f -> exists x, nth_error xs j = Some x).
    { intros j f Hf. destruct (nth_error xs j) as [x|] eqn:Hx; [eauto|]. apply nth_error_None in Hx. assert (j < List.length fs)%nat by (apply nth_error_Some; congruence). lia. }
    assert (M : match_keys fs 0 cols (map acc0 fs) = Ok accs).
    { apply (match_keys_iff fs cols 0 _ accs L0). apply St. split; [exact La|]. intros j f a Hf H0. destruct (Xj j f Hf) as [x Hx]. now apply (Ha j f x a). }
    rewrite M. cbn [rbind fst snd]. apply (rest_iff fs U accs xs La). apply all3_of_nth; [exact La|exact Lx|]. intros j f a x Hf H0 Hx. now apply (Ha j f x a).
Qed.
Lemma deserialize_exactly fs cols xs : flat_free (KNested fs) = true -> (deserialize fs cols = Ok xs <-> read_exactly fs cols xs).
Proof. intros F. exact (exact_all (KNested fs) F cols xs). Qed.
