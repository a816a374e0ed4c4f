(** Writing a derived struct and reading it back; structs of plain fields. *)
From Coq Require Import String Permutation.
From Verif Require Import Base Types Text RawRow Numeric Convert ConvertSpec ConvertProofs Migrate MigrateProofs Derive DeriveSpec DeriveProofs DeriveProofs2.
Local Open Scope list_scope.
Local Open Scope N_scope.

(** ** Counts and names *)
Lemma kind_names_flat name fs : kind_names name (KFlatten fs) = column_names fs.
Proof. cbn [kind_names]. unfold column_names. induction fs as [|[i k] fs IH]; [reflexivity|]. cbn [flat_map fst snd]. rewrite IH. destruct (i_skip_ser i); reflexivity. Qed.
Lemma kind_names_nested name fs : kind_names name (KNested fs) = map (fun c => dotted name ++ c) (column_names fs).
Proof. rewrite <- (kind_names_flat name fs). reflexivity. Qed.

Fixpoint counts (fs : fields) : option nat :=
  match fs with
  | [] => Some 0%nat
  | (i, k) :: r => match counts r with
                   | None => None
                   | Some n => if i_skip_ser i then Some n else match kind_count k with Some m => Some (m + n)%nat | None => None end
                   end
  end.
Lemma kind_count_nested fs : kind_count (KNested fs) = if existsb (fun f => is_flatten (snd f)) fs then None else counts fs.
Proof. reflexivity. Qed.
Lemma count_names k : forall n name, kind_count k = Some n -> List.length (kind_names name k) = n.
Proof.
  induction k as [r|fs IH|fs IH] using kind_ind'; intros n name H.
  - cbn [kind_count kind_names List.length] in *. congruence.
  - rewrite kind_names_nested, map_length. rewrite kind_count_nested in H. destruct (existsb _ fs); [discriminate|].
    revert n H. induction fs as [|[i k] fs IHf]; intros n H; [cbn [counts column_names flat_map List.length] in *; congruence|].
    pose proof (Forall_inv IH) as I1. cbv beta in I1. cbn [snd] in I1. specialize (IHf (Forall_inv_tail IH)). cbn [counts] in H. unfold column_names. cbn [flat_map fst snd]. fold (column_names fs).
    destruct (counts fs) as [m|]; [|discriminate]. specialize (IHf m eq_refl). destruct (i_skip_ser i); cbn [app]; [congruence|]. rewrite app_length.
    destruct (kind_count k) as [m'|]; [|discriminate]. rewrite (I1 m' (i_name i) eq_refl). injection H as <-. f_equal. exact IHf.
  - discriminate.
Qed.
Lemma column_count_names fs n : column_count fs = Some n -> List.length (column_names fs) = n.
Proof. intros H. pose proof (count_names (KNested fs) n [] H) as E. now rewrite kind_names_nested, map_length in E. Qed.

(** ** Serialization *)
Lemma mapM_ext {A B} (f g : A -> res B) l : (forall x, f x = g x) -> mapM f l = mapM g l.
Proof. intros H. induction l as [|x l IH]; cbn [mapM]; [reflexivity|]. now rewrite H, IH. Qed.
Lemma kind_serialize_flat hints i fs xs : kind_serialize hints i (KFlatten fs) (SSub xs) = serialize hints fs xs.
Proof.
  cbn [kind_serialize]. revert xs. induction fs as [|[i' k] fs IH]; intros [|x xs]; try reflexivity. cbn [serialize]. rewrite <- IH. destruct (i_skip_ser i'); reflexivity.
Qed.
Lemma kind_serialize_nested hints i fs rows : kind_serialize hints i (KNested fs) (SVec rows) =
  match column_count fs with None => Panic | Some n => rs <- mapM (serialize hints fs) rows ;; nested_columns (i_name i) n (column_names fs) rs end.
Proof.
  cbn [kind_serialize]. destruct (column_count fs) as [n|]; [|reflexivity]. f_equal. apply mapM_ext. intros xs. exact (kind_serialize_flat hints i fs xs).
Qed.

Lemma rows_table {A} (d : A) n : forall (names : list text) (rows : list (list (text * A))), List.length names = n -> Forall (fun row => map fst row = names) rows ->
  forall i c, nth_error names i = Some c -> mapM (fun row => match nth_error row i with Some (_, v) => Ok v | None => Panic end) rows = Ok (map (fun row => snd (nth i row (c, d))) rows).
Proof.
  intros names rows L F i c H. apply mapM_id. induction F as [|row rows Fr _ IH]; cbn [map]; [constructor|]. constructor; [|exact IH].
  assert (X : nth_error (map fst row) i = Some c) by (rewrite Fr; exact H). rewrite nth_error_map in X. destruct (nth_error row i) as [[c' v]|] eqn:E; [|discriminate].
  rewrite (nth_error_nth row i (c, d) E). reflexivity.
Qed.
Definition table_of (E : text -> ty) (names : list text) (rows : list (list (text * value))) : list (text * ty * list value) :=
  map (fun ic => (snd ic, E (snd ic), map (fun row => snd (nth (fst ic) row ([], VNull))) rows)) (combine (seq 0 (List.length names)) names).

Lemma nested_columns_ok name n names rows E : List.length names = n -> Forall (fun row => map fst row = names) rows ->
  nested_columns name n names rows = Ok (map (fun c => (dotted name ++ fst (fst c), VArray (snd c))) (table_of E names rows)).
Proof.
  intros L F. unfold nested_columns.
  assert (X : forallb (fun row => (List.length row =? n)%nat) rows = true).
  { apply forallb_forall. intros row Hr. pose proof (proj1 (Forall_forall _ _) F row Hr) as Y. cbv beta in Y. apply Nat.eqb_eq. rewrite <- L, <- Y. now rewrite map_length. }
  rewrite X. unfold table_of. rewrite map_map. cbn [fst snd]. apply mapM_id. rewrite <- L.
  assert (G : forall s ns, (forall i c, nth_error ns i = Some c -> nth_error names (s + i) = Some c) ->
    Forall2 (fun a b => match match rows with [] => nth_error names a | first :: _ => option_map fst (nth_error first a) end with
      | Some c => ' vs <- mapM (fun row => match nth_error row a with Some (_, v) => Ok v | None => Panic end) rows ;; Ok (dotted name ++ c, VArray vs)
      | None => Panic end = Ok b) (seq s (List.length ns))
      (map (fun x => (dotted name ++ snd x, VArray (map (fun row => snd (nth (fst x) row ([], VNull))) rows))) (combine (seq s (List.length ns)) ns))).
  { clear L. intros s ns. revert s. induction ns as [|c ns IH]; intros s H; cbn [List.length seq combine map]; [constructor|]. constructor.
    - pose proof (H 0%nat c eq_refl) as Hc. rewrite Nat.add_0_r in Hc.
      assert (Y : match rows with [] => nth_error names s | first :: _ => option_map fst (nth_error first s) end = Some c).
      { destruct rows as [|first rows]; [exact Hc|]. pose proof (Forall_inv F) as Y. cbv beta in Y. rewrite <- nth_error_map, Y. exact Hc. }
      rewrite Y. rewrite (rows_table VNull (List.length names) names rows eq_refl F s c Hc). cbn [rbind fst snd]. do 3 f_equal. apply map_ext_in. intros row Hr.
      f_equal. apply nth_indep. pose proof (proj1 (Forall_forall _ _) F row Hr) as Z. cbv beta in Z. assert (Lr : List.length row = List.length names) by (rewrite <- Z; symmetry; apply map_length). rewrite Lr. apply nth_error_Some. congruence.
    - apply IH. intros i d Hd. rewrite Nat.add_succ_l, <- Nat.add_succ_r. apply H. exact Hd. }
  apply (G 0%nat names). auto.
Qed.

Lemma table_names E names rows : map (fun c => fst (fst c)) (table_of E names rows) = names.
Proof.
  unfold table_of. rewrite map_map. cbn [fst snd]. generalize 0%nat. induction names as [|c names IH]; intros s; [reflexivity|]. cbn [List.length seq combine map snd]. f_equal. apply IH.
Qed.
Lemma row_of_table E names rows : Forall (fun row => map fst row = names) rows -> forall k row, nth_error rows k = Some row ->
  row_of (table_of E names rows) k = sent_as (fun c => strip_low_cardinality (E c)) row.
Proof.
  intros F k row Hk. unfold row_of, table_of, sent_as. rewrite map_map. cbn [fst snd].
  assert (Fr : map fst row = names) by (apply (proj1 (Forall_forall _ _) F); eapply nth_error_In; eauto). subst names. rewrite map_length.
  assert (Hrow : forall i, nth k (map (fun r => snd (nth i r ([], VNull))) rows) VNull = snd (nth i row ([], VNull))).
  { intros i. apply nth_error_nth. exact (map_nth_error (fun r => snd (nth i r ([], VNull))) k rows Hk). }
  assert (G : forall s r, (forall i x, nth_error r i = Some x -> nth (s + i) row ([], VNull) = x) ->
    map (fun x => (snd x, strip_low_cardinality (E (snd x)), nth k (map (fun r0 => snd (nth (fst x) r0 ([], VNull))) rows) VNull)) (combine (seq s (List.length r)) (map fst r)) =
    map (fun nv => (fst nv, strip_low_cardinality (E (fst nv)), snd nv)) r).
  { intros s r. revert s. induction r as [|[c v] r IH]; intros s H; [reflexivity|]. cbn [List.length seq map combine fst snd]. f_equal.
    - rewrite Hrow. pose proof (H 0%nat (c, v) eq_refl) as Y. rewrite Nat.add_0_r in Y. now rewrite Y.
    - apply IH. intros i x Hx. rewrite Nat.add_succ_l, <- Nat.add_succ_r. now apply H. }
  apply (G 0%nat row). intros i x Hx. cbn [Nat.add]. now apply nth_error_nth.
Qed.

Definition writes (k : kind) : Prop := forall hints T i x, kind_sane k -> size_known (i, k) = true -> kind_faithful hints T k i x ->
  exists cs, (if i_skip_ser i then cs = [] else kind_serialize hints i k x = Ok cs /\ map fst cs = kind_names (i_name i) k) /\ kind_reads k i x (sent_as T cs).
Lemma faithful_fields hints T fs : Forall (fun f => writes (snd f)) fs -> Forall (fun f => kind_sane (snd f)) fs -> Forall (fun f => size_known f = true) fs ->
  forall xs, faithful hints T fs xs -> exists cs, serialize hints fs xs = Ok cs /\ map fst cs = column_names fs /\ reads fs xs (sent_as T cs).
Proof.
  induction fs as [|[i k] fs IH]; intros W S Z [|x xs] H; try (destruct H as []; fail).
  - exists []. split; [reflexivity|]. split; [reflexivity|]. exists []. split; [reflexivity|exact I].
  - destruct H as [H1 H2]. destruct (IH (Forall_inv_tail W) (Forall_inv_tail S) (Forall_inv_tail Z) xs H2) as (cs & E & N & css & Ec & R).
    destruct (Forall_inv W hints T i x (Forall_inv S) (Forall_inv Z) H1) as (c1 & H3 & R1). cbn [snd fst] in H3, R1.
    exists (c1 ++ cs). cbn [serialize]. unfold column_names. cbn [flat_map fst snd]. fold (column_names fs). rewrite map_app, N. split; [|split].
    + destruct (i_skip_ser i); [subst c1; exact E|]. destruct H3 as [E1 _]. rewrite E1, E. reflexivity.
    + destruct (i_skip_ser i); [subst c1; reflexivity|]. destruct H3 as [_ N1]. now rewrite N1.
    + exists (sent_as T c1 :: css). cbn [concat]. unfold sent_as in *. rewrite map_app, Ec. split; [reflexivity|]. split; [exact R1|exact R].
Qed.
Lemma writes_all k : writes k.
Proof.
  induction k as [r|fs IH|fs IH] using kind_ind'; intros hints T i x S Z F; cbn [kind_faithful] in F.
  - cbn [kind_reads]. destruct (i_skip_ser i).
    + exists []. split; [reflexivity|]. destruct (i_skip_de i); [|right]; auto.
    + destruct F as (-> & y & v & -> & E1 & E2). exists [(i_name i, v)]. cbn [kind_serialize]. rewrite E1. split; [split; reflexivity|]. left. exists (T (i_name i)), v, y. auto.
  - apply sane_inv in S as [(_ & _ & Zs) S]. cbn [kind_reads]. destruct (i_skip_ser i).
    + destruct F as [-> D]. exists []. split; [reflexivity|auto].
    + destruct F as (SD & Ne & rows & E & -> & HT & HR). rewrite SD. unfold size_known, inactive in Z. cbn [fst snd] in Z. rewrite SD in Z. cbn [fst snd is_flatten orb] in Z.
      destruct (column_count fs) as [n|] eqn:C; [|discriminate]. pose proof (column_count_names fs n C) as L.
      assert (M : exists rs, mapM (serialize hints fs) rows = Ok rs /\ Forall (fun row => map fst row = column_names fs) rs /\
        (forall k row, nth_error rows k = Some row -> exists r, nth_error rs k = Some r /\ reads fs row (sent_as (fun c => strip_low_cardinality (E c)) r))).
      { clear - HR IH S Zs. induction HR as [|row rows Hr _ IHr]; [exists []; split; [reflexivity|]; split; [constructor|]; intros [|k]; discriminate|].
        destruct IHr as (rs & E1 & E2 & E3). destruct (faithful_fields hints _ fs IH S Zs row Hr) as (r & A & B & R). exists (r :: rs). cbn [mapM]. rewrite A, E1. split; [reflexivity|]. split; [now constructor|].
        intros [|k] row' Hk; cbn [nth_error] in *; [injection Hk as <-; eauto|now apply E3]. }
      destruct M as (rs & E1 & E2 & E3). pose proof (mapM_ok_length _ _ _ E1) as Lr.
      exists (map (fun c => (dotted (i_name i) ++ fst (fst c), VArray (snd c))) (table_of E (column_names fs) rs)). split; [split|].
      * rewrite kind_serialize_nested, C, E1. cbn [rbind]. apply nested_columns_ok; assumption.
      * rewrite kind_names_nested, map_map. cbn [fst]. rewrite <- (table_names E (column_names fs) rs) at 2. now rewrite map_map.
      * exists rows, (table_of E (column_names fs) rs). split; [reflexivity|]. split; [|split; [|split]].
        -- intros X. pose proof (table_names E (column_names fs) rs) as Y. rewrite X in Y. cbn [map] in Y. congruence.
        -- unfold sent_as. rewrite map_map. cbn [fst snd]. apply map_ext_in. intros c Hc. unfold nested_column. f_equal. f_equal. unfold table_of in Hc. apply in_map_iff in Hc as ([j n'] & <- & Hc). cbn [fst snd]. apply HT. now apply in_combine_r in Hc.
        -- apply Forall_forall. intros c Hc. unfold table_of in Hc. apply in_map_iff in Hc as ([j n'] & <- & Hc). cbn [fst snd]. rewrite map_length. exact Lr.
        -- intros k row Hk. destruct (E3 k row Hk) as (r & Hr & R). rewrite (row_of_table E (column_names fs) rs E2 k r Hr). exact R.
  - apply sane_inv in S as [(_ & _ & Zs) S]. destruct F as (-> & SD & xs & -> & H). destruct (faithful_fields hints T fs IH S Zs xs H) as (cs & A & B & R).
    exists cs. rewrite kind_serialize_flat, kind_names_flat. split; [auto|]. cbn [kind_reads]. split; [exact SD|]. split.
    + unfold sent_as. rewrite map_map. cbn [cname fst]. change (fun x : text * value => cname (fst x, T (fst x), snd x)) with (fun x : text * value => fst x). rewrite <- B. apply Permutation_refl.
    + exists xs. auto.
Qed.

Lemma roundtrip_all hints T fs xs : sane fs -> NoDup (column_names fs) -> faithful hints T fs xs ->
  exists row, serialize hints fs xs = Ok row /\ map fst row = column_names fs /\ forall cols, Permutation cols (sent_as T row) -> deserialize fs cols = Ok xs.
Proof.
  intros S ND F. pose proof (sane_inv fs S) as [(_ & _ & Z) Ss]. assert (W : Forall (fun f : info * kind => writes (snd f)) fs) by (apply Forall_forall; intros f _; apply writes_all).
  destruct (faithful_fields hints T fs W Ss Z xs F) as (row & A & B & R). exists row. split; [exact A|]. split; [exact B|]. intros cols P.
  apply (deserialize_reads fs xs (sent_as T row)); [exact S|exact R| |exact P].
  unfold sent_as. rewrite map_map. change (fun x : text * value => cname (fst x, T (fst x), snd x)) with (fun x : text * value => fst x). rewrite <- B in ND. exact ND.
Qed.

Lemma leaf_fits_faithful h t r y : leaf_fits h t r y -> exists v, to_sql r y h = Ok v /\ from_sql r (strip_low_cardinality t) v = Ok y.
Proof. intros (V & St & M & K). destruct (round r _ y h (validate_strip t V) St M K) as (v & A & _ & C & _). eauto. Qed.
