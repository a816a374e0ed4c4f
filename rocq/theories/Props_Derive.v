(** C43: derived row structs: columns are matched by name, and what is written is read back. *)
From Coq Require Import String Permutation.
From Verif Require Import Base Types Text RawRow Numeric Convert ConvertSpec Migrate Derive DeriveSpec DeriveProofs DeriveProofs2 DeriveProofs3 DeriveProofs4 DeriveSafe NestedSpec NestedProofs FlatSpec FlatProofs.
Local Open Scope list_scope.
Local Open Scope N_scope.

(** Columns that represent a value of the struct (see DeriveSpec: plain fields by name or defaulted, nested
    fields as equally long arrays, flattened fields by the columns of the inner struct), each once, are read as that
    value whatever their order. *)
Theorem C43_by_name : forall fs xs cs cols,
  sane fs -> reads fs xs cs -> NoDup (map cname cs) -> Permutation cols cs -> deserialize fs cols = Ok xs.
Proof. exact deserialize_reads. Qed.
Print Assumptions C43_by_name.

(** What [serialize_row] produces has the declared column names and is read back as the value, whatever the order
    in which the columns are sent back. *)
Theorem C43_roundtrip : forall hints T fs xs,
  sane fs -> NoDup (column_names fs) -> faithful hints T fs xs ->
  exists row, serialize hints fs xs = Ok row /\ map fst row = column_names fs /\
    forall cols, Permutation cols (sent_as T row) -> deserialize fs cols = Ok xs.
Proof. exact roundtrip_all. Qed.
Print Assumptions C43_roundtrip.

(** The condition of [faithful] on a plain field holds for every Rust type and column type that fit together. *)
Theorem C43_plain_faithful : forall hints T i r y,
  i_skip_ser i = false -> i_skip_de i = false -> leaf_fits (hints (i_name i)) (T (i_name i)) r y ->
  kind_faithful hints T (KPlain r) i (SPlain y).
Proof.
  intros hints T i r y S D H. cbn [kind_faithful]. rewrite S. split; [exact D|]. destruct (leaf_fits_faithful _ _ _ _ H) as (v & A & B). exists y, v. auto.
Qed.
Print Assumptions C43_plain_faithful.

(** A struct of plain fields is read exactly when every field that is not skipped gets one column that converts, or
    none and has a default; a column goes to the field of its name, otherwise to the field of its position. *)
Theorem C43_plain_exact : forall fs cols xs, all_plain fs ->
  (deserialize fs cols = Ok xs <->
   List.length xs = List.length fs /\
   forall j f x, nth_error fs j = Some f -> nth_error xs j = Some x -> plain_field (columns_of fs j cols) f x).
Proof. exact deserialize_plain. Qed.
Print Assumptions C43_plain_exact.

(** The same with nested fields, at any depth (NestedSpec.v): a column goes to the first field meant by its name, otherwise
    to the field at its position; a skipped field has its default, a plain one the converted column or its default, a
    nested one the rows read, by the same rules, from the elements of its columns. *)
Theorem C43_nested_exact : forall fs cols xs, flat_free (KNested fs) = true ->
  (deserialize fs cols = Ok xs <-> read_exactly fs cols xs).
Proof. exact deserialize_exactly. Qed.
Print Assumptions C43_nested_exact.

(** And with flattened fields, at any depth (FlatSpec.v): their columns must all be there, and each flattened struct is read
    from the columns it asks for; the columns that are left are matched by name only, to plain fields and to nested ones. *)
Theorem C43_flattened_exact : forall fs cols xs, layered fs -> NoDup (map cname cols) ->
  (deserialize fs cols = Ok xs <-> reads_flat fs cols xs).
Proof. exact flattened_exact. Qed.
Print Assumptions C43_flattened_exact.

(** Reading such a struct never panics on columns as the decoder delivers them. *)
Theorem C43_plain_no_panic : forall fs cols, all_plain fs ->
  Forall (fun f => forall r, snd f = KPlain r -> calm r) fs ->
  Forall (fun c => typed (snd (fst c)) (snd c) = true) cols ->
  deserialize fs cols <> Panic.
Proof. exact deserialize_plain_no_panic. Qed.
Print Assumptions C43_plain_no_panic.

(** Neither does reading any struct, with nested and flattened fields, whose nested structs demand a column and contain
    no flattened field and whose flattened fields ask for different columns. *)
Theorem C43_no_panic : forall fs cols, steady fs ->
  Forall (fun c => typed (snd (fst c)) (snd c) = true) cols ->
  deserialize fs cols <> Panic.
Proof. exact deserialize_steady. Qed.
Print Assumptions C43_no_panic.

(** ** Examples *)
Definition ex_info (n : text) : info := {| i_name := n; i_skip_ser := false; i_skip_de := false; i_default := None |}.
Definition ex_skip (n : text) (d : sval) : info := {| i_name := n; i_skip_ser := true; i_skip_de := true; i_default := Some d |}.
Definition u8 := RLeaf (LUInt I8).
Definition s8 (n : N) := SPlain (XLeaf (VUInt I8 n)).
(** [struct S { a: u8, #[flatten] p: P, #[nested] l: Vec<L>, #[skip] z: u8 }], [P { b: String }], [L { c: u8, d: Option<u8> }]
    where l.c is an Array(LowCardinality(UInt8)) *)
Definition ex_fields : fields :=
  [(ex_info [97], KPlain u8); (ex_info [112], KFlatten [(ex_info [98], KPlain RString)]);
   (ex_info [108], KNested [(ex_info [99], KPlain u8); (ex_info [100], KPlain (ROpt u8))]); (ex_skip [122] (s8 0), KPlain u8)].
Definition ex_types (n : text) : ty :=
  if text_eqb n [98] then TString else if text_eqb n [108; 46; 99] then TArray (TLowCard (TUInt I8))
  else if text_eqb n [108; 46; 100] then TArray (TNullable (TUInt I8)) else TUInt I8.
Definition ex_value : list sval :=
  [s8 1; SSub [SPlain (XStr [104; 105])]; SVec [[s8 3; SPlain (XOpt None)]; [s8 3; SPlain (XOpt (Some (XLeaf (VUInt I8 4))))]]; s8 0].
Definition ex_hints (n : text) : option ty := if existsb (text_eqb n) [[97]; [98]; [108; 46; 99]; [108; 46; 100]] then Some (ex_types n) else None.
Example C43_nonvacuous :
  sane ex_fields /\ NoDup (column_names ex_fields) /\ faithful ex_hints ex_types ex_fields ex_value /\
  column_names ex_fields = [[97]; [98]; [108; 46; 99]; [108; 46; 100]].
Proof.
  split; [|split; [|split; [|reflexivity]]].
  - unfold sane, names_ok. cbn [kind_sane]. unfold names_ok.
    assert (D : forall n : N, n <> 46 -> ~ In 46 [n]) by (intros n H [E|[]]; congruence).
    repeat match goal with |- _ /\ _ => split | |- True => exact I end;
      try (cbn; repeat constructor; cbn; intros H; repeat destruct H as [H|H]; congruence); repeat constructor; try (apply D; discriminate).
  - cbn. repeat constructor; cbn; intros H; repeat destruct H as [H|H]; congruence.
  - unfold faithful, ex_fields, ex_value. cbn [all2 kind_faithful snd fst i_skip_ser i_skip_de ex_info ex_skip i_default].
    split; [split; [reflexivity|]; do 2 eexists; repeat split; reflexivity|].
    split; [split; [reflexivity|]; split; [reflexivity|]; eexists; split; [reflexivity|]; split; [|exact I]; split; [reflexivity|]; do 2 eexists; repeat split; reflexivity|].
    split; [|split; [reflexivity|exact I]]. split; [reflexivity|]. split; [discriminate|].
    exists [[s8 3; SPlain (XOpt None)]; [s8 3; SPlain (XOpt (Some (XLeaf (VUInt I8 4))))]], (fun c => if text_eqb c [99] then TLowCard (TUInt I8) else TNullable (TUInt I8)).
    split; [reflexivity|]. split.
    + intros c H. cbn in H. destruct H as [<-|[<-|[]]]; reflexivity.
    + apply Forall_cons; [|apply Forall_cons; [|apply Forall_nil]]; (split; [split; [reflexivity|]; do 2 eexists; repeat split; reflexivity|]);
        (split; [split; [reflexivity|]; do 2 eexists; repeat split; reflexivity|exact I]).
Qed.
Example C43_steady : steady ex_fields /\ flattened_names ex_fields = [[98]] /\
  deserialize ex_fields [] = Err EFlattenedMissing /\
  deserialize ex_fields [([98], TString, VString []); ([97], TUInt I8, VUInt I8 1)] = Err (EMissingField [99]) /\
  deserialize ex_fields [([98], TString, VString []); ([108; 46; 99], TArray (TUInt I8), VArray [VUInt I8 3]); ([108; 46; 100], TArray (TNullable (TUInt I8)), VArray [])] = Err EDeser.
Proof.
  split; [|split; [reflexivity|split; [vm_compute; reflexivity|split; vm_compute; reflexivity]]].
  assert (U : calm u8) by reflexivity.
  assert (L : forall (fs : fields), Forall (fun f => exists r, snd f = KPlain r /\ calm r) fs -> steady fs).
  { intros fs H. pose proof (proj1 (Forall_forall _ _) H) as A. cbv beta in A. constructor.
    - intros i r I0 _. destruct (A _ I0) as (r' & E & N). cbn [snd] in E. injection E as ->. exact N.
    - intros i nf I0. destruct (A _ I0) as (r' & E & _). discriminate.
    - intros i nf I0. destruct (A _ I0) as (r' & E & _). discriminate.
    - intros i nf I0. destruct (A _ I0) as (r' & E & _). discriminate.
    - replace (flattened_names fs) with (@nil text); [constructor|]. clear A. induction H as [|[i k] fs (r & E & _) _ IH]; [reflexivity|]. cbn [snd] in E. subst k. exact IH. }
  constructor.
  - intros i r [E|[E|[E|[E|[]]]]]; injection E as <- <- || discriminate E; intros; exact U.
  - intros i nf [E|[E|[E|[E|[]]]]]; try discriminate E. injection E as <- <-. intros _. split; [|discriminate]. exists (ex_info [99]), (KPlain u8). split; [now left|]. split; reflexivity.
  - intros i nf [E|[E|[E|[E|[]]]]]; try discriminate E. injection E as <- <-. intros _. apply L. repeat constructor; eexists; (split; [reflexivity|reflexivity]).
  - intros i nf [E|[E|[E|[E|[]]]]]; try discriminate E. injection E as <- <-. intros _. apply L. repeat constructor; eexists; (split; [reflexivity|reflexivity]).
  - cbn. repeat constructor. intros [].
Qed.
(** The columns in another order, read. *)
(** [struct S { #[flatten] p: P, a: u8, #[nested] m: Vec<M> }], [P { b: String, #[flatten] q: Q }], [Q { c: u8, #[nested] l: Vec<L> }],
    [L { d: u8 }], [M { e: u8, f: u8 }]: layered, read from shuffled columns beside one that nothing asks for, and refused without the
    column of the inmost struct. *)
Example C43_flattened_nonvacuous :
  let fs := [(ex_info [112], KFlatten [(ex_info [98], KPlain RString); (ex_info [113], KFlatten [(ex_info [99], KPlain u8); (ex_info [108], KNested [(ex_info [100], KPlain u8)])])]); (ex_info [97], KPlain u8);
             (ex_info [109], KNested [(ex_info [101], KPlain u8); (ex_info [102], KPlain u8)])] in
  let ld := ([108; 46; 100], TArray (TUInt I8), VArray [VUInt I8 5]) in
  let me := ([109; 46; 101], TArray (TUInt I8), VArray [VUInt I8 6; VUInt I8 7]) in
  let mf := ([109; 46; 102], TArray (TUInt I8), VArray [VUInt I8 8; VUInt I8 9]) in
  layered fs /\ flat_free (KNested fs) = false /\ flattened_names fs = [[98]; [99]; [108; 46; 100]] /\
  deserialize fs [mf; ([97], TUInt I8, VUInt I8 1); ld; ([122], TString, VString []); ([99], TUInt I8, VUInt I8 2); me; ([98], TString, VString [104])] =
    Ok [SSub [SPlain (XStr [104]); SSub [s8 2; SVec [[s8 5]]]]; s8 1; SVec [[s8 6; s8 8]; [s8 7; s8 9]]] /\
  is_ok (deserialize fs [mf; ([97], TUInt I8, VUInt I8 1); ld; me; ([98], TString, VString [104])]) = false.
Proof.
  cbv zeta. split; [|split; [reflexivity|split; [reflexivity|split; vm_compute; reflexivity]]].
  apply layered_flat; [..|cbn; repeat constructor; cbn; intros H; repeat destruct H as [H|H]; congruence].
  - intros i k [E|[E|[E|[]]]]; try discriminate. injection E as <- <-. reflexivity.
  - intros i k [E|[E|[E|[]]]]; try discriminate. injection E as <- <-. reflexivity.
  - intros i k [E|[E|[E|[]]]]; try discriminate. injection E as <- <-.
    apply layered_flat; [..|cbn; repeat constructor; cbn; intros H; repeat destruct H as [H|H]; congruence].
    + intros i k [E|[E|[]]]; discriminate.
    + intros i k [E|[E|[]]]; try discriminate. injection E as <- <-. reflexivity.
    + intros i k [E|[E|[]]]; try discriminate. injection E as <- <-. apply layered_leaf. reflexivity.
Qed.
Example C43_shuffled :
  deserialize ex_fields
    [([108; 46; 100], TArray (TNullable (TUInt I8)), VArray [VNull; VUInt I8 4]); ([98], TString, VString [104; 105]);
     ([108; 46; 99], TArray (TLowCard (TUInt I8)), VArray [VUInt I8 3; VUInt I8 3]); ([97], TUInt I8, VUInt I8 1)] = Ok ex_value.
Proof. vm_compute. reflexivity. Qed.
Example C43_plain_nonvacuous :
  let fs := [(ex_info [97], KPlain u8); (ex_skip [122] (s8 9), KPlain u8); ({| i_name := [98]; i_skip_ser := false; i_skip_de := false; i_default := Some (s8 7) |}, KPlain u8)] in
  all_plain fs /\ deserialize fs [([97], TUInt I8, VUInt I8 1)] = Ok [s8 1; s8 9; s8 7] /\
  deserialize fs [([98], TUInt I8, VUInt I8 1)] = Err (EMissingField [97]) /\
  deserialize fs [([97], TUInt I8, VUInt I8 1); ([97], TUInt I8, VUInt I8 1)] = Err (EDuplicateField [97]).
Proof. cbv zeta. repeat split; try (vm_compute; reflexivity). repeat constructor; eexists; reflexivity. Qed.

(** [struct { a: u8, #[nested] l: Vec<struct { c: u8, d: u8 }>, b: u8 }]: the second column is given by its position, with
    its whole name, to [c] by its position again; the third by its name; too short a column for [l] is an error. *)
Example C43_nested_nonvacuous :
  let fs := [(ex_info [97], KPlain u8); (ex_info [108], KNested [(ex_info [99], KPlain u8); (ex_info [100], KPlain u8)]); (ex_info [98], KPlain u8)] in
  let a2 := VArray [VUInt I8 2; VUInt I8 3] in
  flat_free (KNested fs) = true /\ slots fs = [0; 1; 1; 2]%nat /\
  given fs 1 [([97], TUInt I8, VUInt I8 1); ([120], TArray (TUInt I8), a2); ([108; 46; 100], TArray (TUInt I8), a2); ([98], TUInt I8, VUInt I8 4)] =
    [(false, ([120], TArray (TUInt I8), a2)); (true, ([108; 46; 100], TArray (TUInt I8), a2))] /\
  deserialize fs [([97], TUInt I8, VUInt I8 1); ([120], TArray (TUInt I8), a2); ([108; 46; 100], TArray (TUInt I8), a2); ([98], TUInt I8, VUInt I8 4)] =
    Ok [s8 1; SVec [[s8 2; s8 2]; [s8 3; s8 3]]; s8 4] /\
  deserialize fs [([97], TUInt I8, VUInt I8 1); ([120], TArray (TUInt I8), a2); ([108; 46; 100], TArray (TUInt I8), VArray [VUInt I8 2]); ([98], TUInt I8, VUInt I8 4)] = Err EDeser.
Proof. cbv zeta. repeat split; vm_compute; reflexivity. Qed.

(** ** What does not hold *)
(** A column of no field's name is not ignored: it is read into the field of its position. *)
Theorem C43_unknown_column_refuted : exists fs cols xs,
  all_plain fs /\ NoDup (active_names fs) /\ Forall (fun c => ~ In (cname c) (column_names fs)) cols /\ cols <> [] /\ deserialize fs cols = Ok xs.
Proof.
  exists [(ex_info [97], KPlain u8)], [([120], TUInt I8, VUInt I8 5)], [s8 5].
  split; [repeat constructor; eexists; reflexivity|]. split; [cbn; repeat constructor; intros []|]. split; [|split; [discriminate|vm_compute; reflexivity]].
  repeat constructor. cbn. intros [H|[]]. discriminate.
Qed.
Print Assumptions C43_unknown_column_refuted.

(** So an additional column can make a complete row fail. *)
Theorem C43_extra_column_refuted : exists fs xs cols extra,
  all_plain fs /\ NoDup (active_names fs) /\ deserialize fs cols = Ok xs /\ ~ In (cname extra) (column_names fs) /\
  deserialize fs (extra :: cols) = Err (EDuplicateField [97]).
Proof.
  exists [(ex_info [97], KPlain u8)], [s8 5], [([97], TUInt I8, VUInt I8 5)], ([120], TUInt I8, VUInt I8 6).
  split; [repeat constructor; eexists; reflexivity|]. split; [cbn; repeat constructor; intros []|]. split; [vm_compute; reflexivity|]. split; [|vm_compute; reflexivity].
  cbn. intros [H|[]]. discriminate.
Qed.
Print Assumptions C43_extra_column_refuted.

(** A nested field without columns, its struct having only defaulted fields: deserialization does not return (a
    [Panic] in the model; in the code a loop that allocates without end). *)
Theorem C43_absent_nested_refuted : exists fs, sane fs /\ deserialize fs [] = Panic /\
  exists inner, fs = [(ex_info [108], KNested inner)] /\ deserialize inner [] = Ok [s8 7].
Proof.
  exists [(ex_info [108], KNested [({| i_name := [99]; i_skip_ser := false; i_skip_de := false; i_default := Some (s8 7) |}, KPlain u8)])].
  split; [|split; [vm_compute; reflexivity|eexists; split; [reflexivity|vm_compute; reflexivity]]].
  unfold sane, names_ok. cbn [kind_sane]. unfold names_ok. assert (D : forall n : N, n <> 46 -> ~ In 46 [n]) by (intros n H [E|[]]; congruence).
  repeat match goal with |- _ /\ _ => split | |- True => exact I end;
      try (cbn; repeat constructor; cbn; intros H; repeat destruct H as [H|H]; congruence); repeat constructor; try (apply D; discriminate).
Qed.
Print Assumptions C43_absent_nested_refuted.

(** Reading one's own rows fails if a field is written but not read ([skip_deserializing]) and the next one is: its column,
    meant by no field, is given to the field at its position, which then has two. *)
Theorem C43_skip_deserializing_refuted : forall hints T i r i' r' fs xs row,
  all_plain fs -> i_skip_de i = true -> i_skip_ser i = false -> i_skip_de i' = false -> i_skip_ser i' = false ->
  ~ In (i_name i) (i_name i' :: map (fun f => i_name (fst f)) fs) ->
  serialize hints ((i, KPlain r) :: (i', KPlain r') :: fs) xs = Ok row ->
  is_ok (deserialize ((i, KPlain r) :: (i', KPlain r') :: fs) (sent_as T row)) = false.
Proof.
  intros hints T i r i' r' fs xs row P D S D' S' N H. set (all := (i, KPlain r) :: (i', KPlain r') :: fs) in *.
  destruct (deserialize all (sent_as T row)) as [ys| |] eqn:E; [exfalso|reflexivity..].
  apply C43_plain_exact in E; [|repeat (apply Forall_cons; [eexists; reflexivity|]); exact P]. destruct E as [L E].
  destruct ys as [|y0 [|y ys]]; try discriminate. specialize (E 1%nat (i', KPlain r') y eq_refl eq_refl). unfold plain_field in E. cbn [fst snd] in E. rewrite D' in E.
  assert (R : exists v v' rest, row = (i_name i, v) :: (i_name i', v') :: rest).
  { unfold all in H. destruct xs as [|x xs]; [discriminate|]. cbn [serialize] in H. rewrite S in H. destruct x as [x| |]; try discriminate. cbn [kind_serialize] in H.
    destruct (to_sql r x (hints (i_name i))) as [v| |]; cbn [rbind] in H; try discriminate. destruct xs as [|x' xs]; [discriminate|]. rewrite S' in H. destruct x' as [x'| |]; try discriminate. cbn [kind_serialize] in H.
    destruct (to_sql r' x' (hints (i_name i'))) as [v'| |]; cbn [rbind] in H; try discriminate. destruct (serialize hints fs xs) as [rest| |]; cbn [rbind] in H; try discriminate.
    injection H as <-. exists v, v', rest. reflexivity. }
  destruct R as (v & v' & rest & ->).
  assert (RP : read_positions all = 1%nat :: filter (fun j => match nth_error all j with Some f => negb (i_skip_de (fst f)) | None => false end) (seq 2 (List.length fs))).
  { unfold read_positions, all. cbn [List.length seq filter nth_error fst]. rewrite D, D'. reflexivity. }
  assert (G0 : goes_to all 0 (i_name i) = Some 1%nat).
  { unfold goes_to. rewrite RP. destruct (find _ _) as [j|] eqn:F; [exfalso|reflexivity]. apply find_some in F as [F1 F2]. apply N.
    assert (G : exists f, nth_error all j = Some f /\ i_name (fst f) = i_name i /\ j <> 0%nat).
    { destruct (nth_error all j) as [f|]; [|discriminate]. exists f. apply text_eqb_eq in F2. split; [reflexivity|]. split; [now symmetry|].
      destruct F1 as [<-|F1]; [discriminate|]. apply filter_In in F1 as [F1 _]. apply in_seq in F1. lia. }
    destruct G as (f & G1 & G2 & G3). destruct j as [|j]; [congruence|]. unfold all in G1. cbn [nth_error] in G1. rewrite <- G2.
    change (In (i_name (fst f)) (map (fun f => i_name (fst f)) ((i', KPlain r') :: fs))). apply (in_map (fun f => i_name (fst f))). exact (nth_error_In _ _ G1). }
  assert (G1 : goes_to all 1 (i_name i') = Some 1%nat).
  { unfold goes_to. rewrite RP. cbn [find]. unfold all at 1. cbn [nth_error fst]. now rewrite text_eqb_refl. }
  unfold columns_of, sent_as in E. cbn [map List.length seq combine filter fst snd cname] in E. unfold cname in E. cbn [fst snd] in E. rewrite G0, G1 in E. exact E.
Qed.
Print Assumptions C43_skip_deserializing_refuted.
Example C43_skip_deserializing_nonvacuous :
  let i := {| i_name := [97]; i_skip_ser := false; i_skip_de := true; i_default := Some (s8 0) |} in
  serialize (fun _ => None) [(i, KPlain u8); (ex_info [98], KPlain u8)] [s8 1; s8 2] = Ok [([97], VUInt I8 1); ([98], VUInt I8 2)] /\
  deserialize [(i, KPlain u8); (ex_info [98], KPlain u8)] [([97], TUInt I8, VUInt I8 1); ([98], TUInt I8, VUInt I8 2)] = Err (EDuplicateField [98]).
Proof. split; reflexivity. Qed.

(** The type hint of a field of a nested struct is that of the outer column with the same name: the value is
    then converted for the wrong type, and the column it is sent in rejects it. *)
Theorem C43_nested_hint_refuted : exists fs xs T row v,
  sane fs /\ serialize (fun n => if existsb (text_eqb n) (column_names fs) then Some (T n) else None) fs xs = Ok row /\
  In ([108; 46; 97], v) row /\ inner_validate (T [108; 46; 97]) v = false.
Proof.
  exists [(ex_info [97], KPlain (RVec RString)); (ex_info [108], KNested [(ex_info [97], KPlain (RVec u8))])],
         [SPlain (XList []); SVec [[SPlain (XList [XLeaf (VUInt I8 1)])]]], (fun n => if text_eqb n [97] then TArray TString else TArray (TArray (TUInt I8))).
  do 2 eexists. split; [|split; [vm_compute; reflexivity|split; [right; left; reflexivity|reflexivity]]].
  unfold sane, names_ok. cbn [kind_sane]. unfold names_ok. assert (D : forall n : N, n <> 46 -> ~ In 46 [n]) by (intros n H [E|[]]; congruence).
  repeat match goal with |- _ /\ _ => split | |- True => exact I end;
      try (cbn; repeat constructor; cbn; intros H; repeat destruct H as [H|H]; congruence); repeat constructor; try (apply D; discriminate).
Qed.
Print Assumptions C43_nested_hint_refuted.

(** Two flattened structs with a common column: given that column twice the reader panics, given once it reports
    a missing column. *)
Theorem C43_shared_flatten_refuted : exists inner fs c, fs = [(ex_info [112], KFlatten inner); (ex_info [113], KFlatten inner)] /\
  deserialize inner [c] = Ok [s8 5] /\ deserialize fs [c; c] = Panic /\ deserialize fs [c] = Err EFlattenedMissing.
Proof.
  exists [(ex_info [97], KPlain u8)]. eexists. exists ([97], TUInt I8, VUInt I8 5). split; [reflexivity|]. repeat split; vm_compute; reflexivity.
Qed.
Print Assumptions C43_shared_flatten_refuted.
