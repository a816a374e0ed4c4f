(** C76: deriving [Row] for a generic struct. *)
From Coq Require Import String Lia.
From Verif Require Import Base Types Text Rename Attrs Bounds BoundSpec BoundProofs.
Local Open Scope list_scope.
Local Open Scope N_scope.

(* A field and a struct to try the theorems on. *)
Definition plain_field : @field (list wpred) :=
  {| f_name := txt "x"; f_renamed := false; f_skip_ser := false; f_skip_de := false; f_default := DNone;
     f_ser := None; f_de := None; f_bound := None; f_nested := false; f_flatten := false |}.
Definition with_attrs (skip_ser flatten nested : bool) : @field (list wpred) :=
  {| f_name := txt "x"; f_renamed := false; f_skip_ser := skip_ser; f_skip_de := false; f_default := DNone;
     f_ser := None; f_de := None; f_bound := None; f_nested := nested; f_flatten := flatten |}.
Definition plain_container : @container (list wpred) sty :=
  {| c_deny := false; c_default := DNone; c_rename_all := RNone; c_bound := None; c_from := None; c_try_from := None; c_into := None |}.
Definition tp (s : string) : sty := path1 (txt s).
(** [struct S<'a, A, B = u8, C, D> { m: HashMap<String, Option<A>>, p: PhantomData<B>, c: &'a [C; 3], d: D::Item, e: u64 }],
    with [#[klickhouse(skip_serializing)]] on a field of type [B]. *)
Definition ex_struct : bcontainer :=
  {| bc_ident := txt "S";
     bc_generics := {| g_params := [GLife (txt "'a"); GType (txt "A") bnil None; GType (txt "B") bnil (Some (tp "u8"));
                                    GType (txt "C") bnil None; GType (txt "D") bnil None]; g_where := [] |};
     bc_attrs := plain_container;
     bc_fields := [(app2 "HashMap" (tp "String") (app1 "Option" (tp "A")), plain_field);
                   (app1 "PhantomData" (tp "B"), plain_field);
                   (TRef (TArray (tp "C") (EOther (txt "3"))), plain_field);
                   (TPath onone false (gcons (txt "D") ANone (gcons (txt "Item") ANone gnil)), plain_field);
                   (tp "u64", plain_field);
                   (tp "B", with_attrs true false false)] |}.

Definition one_field (t : sty) (a : @field (list wpred)) : bcontainer :=
  {| bc_ident := txt "S"; bc_generics := {| g_params := [GType (txt "T") bnil None]; g_where := [] |};
     bc_attrs := plain_container; bc_fields := [(t, a)] |}.

(** The generated implementation has the parameters of the struct in their order, without defaults;
    its where clause is the struct's, then the [bound]s of the fields, then the struct's [bound] or, if
    it has none, both conversion traits for the parameters used by converted fields, in order, and
    for the associated types that are types of such fields, in the order of the fields. *)
Theorem C76_where_clause : forall c,
  Forall2 same_param (g_params (bc_generics c)) (g_params (build_generics c)) /\
  exists added,
    g_where (build_generics c) =
      g_where (bc_generics c) ++
      flat_map (fun f => match f_bound (snd f) with Some l => l | None => [] end) (bc_fields c) ++ added /\
    match c_bound (bc_attrs c) with
    | Some l => added = l
    | None => exists params assoc,
        added = map both (map path1 params ++ concat assoc) /\
        subseq params (type_params (bc_generics c)) /\
        (forall i, In i params <-> In i (type_params (bc_generics c)) /\
           exists t a, In (t, a) (bc_fields c) /\ converted a /\ uses i t) /\
        Forall2 (assoc_bound (type_params (bc_generics c))) (bc_fields c) assoc
    end.
Proof.
  intros c. split; [exact (build_params c)|]. eexists. split; [exact (build_where c)|].
  destruct (c_bound (bc_attrs c)); [reflexivity|].
  destruct (inferred_spec (type_params (bc_generics c)) (bc_fields c)) as (is & ll & -> & H). now exists is, ll.
Qed.
Print Assumptions C76_where_clause.

Example C76_where_clause_example :
  g_where (build_generics ex_struct) =
    [both (tp "A"); both (tp "C"); both (TPath onone false (gcons (txt "D") ANone (gcons (txt "Item") ANone gnil)))].
Proof. vm_compute. reflexivity. Qed.

(** For a field that is converted, the bounds found are enough: whatever its conversion needs and
    both traits on every parameter would give, the generated where clause gives too. *)
Theorem C76_enough : forall c facts f,
  c_bound (bc_attrs c) = None -> In f (bc_fields c) -> converted (snd f) ->
  ~ In (txt "PhantomData") (type_params (bc_generics c)) ->
  forall tr t, In (Some (tr, t)) (serialize_needs f ++ deserialize_needs f) ->
    implements (all_bounded (type_params (bc_generics c)) facts) tr t ->
    implements (under (build_generics c) facts) tr t.
Proof. exact enough_container. Qed.
Print Assumptions C76_enough.

Example C76_enough_example :
  let facts := fun tr t => tr = HashEq /\ t = tp "String" in
  implements (under (build_generics ex_struct) facts) FromSql (app2 "HashMap" (tp "String") (app1 "Option" (tp "A"))).
Proof.
  intros facts.
  apply (C76_enough ex_struct facts (app2 "HashMap" (tp "String") (app1 "Option" (tp "A")), plain_field)).
  - reflexivity.
  - now left.
  - easy.
  - cbn. intuition discriminate.
  - right. now left.
  - apply i_hash_from; [now left| | |].
    + apply (i_plain _ FromSql "String"); [now left|cbn; tauto].
    + apply i_known. now left.
    + apply i_wrap; [now left|now left|]. apply i_known. right. split; [now left|]. exists (txt "A"). split; [|reflexivity].
      cbn. tauto.
Qed.

(** So a struct whose fields are all converted compiles if it would with both traits on every
    parameter. *)
Theorem C76_compiles : forall c facts,
  c_bound (bc_attrs c) = None -> c_from (bc_attrs c) = None -> c_try_from (bc_attrs c) = None -> c_into (bc_attrs c) = None ->
  (forall t a, In (t, a) (bc_fields c) -> converted a) ->
  ~ In (txt "PhantomData") (type_params (bc_generics c)) ->
  (forall n, In n (impl_needs c) -> exists tr t, n = Some (tr, t) /\ implements (all_bounded (type_params (bc_generics c)) facts) tr t) ->
  forall n, In n (impl_needs c) -> exists tr t, n = Some (tr, t) /\ implements (under (build_generics c) facts) tr t.
Proof.
  intros c facts B F1 F2 IN C NP H n I. destruct (H n I) as (tr & t & -> & M). exists tr, t. split; [reflexivity|].
  assert (J : exists f, In f (bc_fields c) /\ In (Some (tr, t)) (serialize_needs f ++ deserialize_needs f)).
  { unfold impl_needs in I. rewrite F1, F2, IN in I. apply in_app_iff in I as [I|I]; apply in_flat_map in I as (f & J & K);
      exists f; (split; [exact J|]); apply in_or_app; tauto. }
  destruct J as ([u a] & J & K). exact (C76_enough c facts (u, a) B J (C u a J) NP tr t K M).
Qed.
Print Assumptions C76_compiles.

Example C76_compiles_example : forall n,
  In n (impl_needs (one_field (TTuple (scons (tp "T") (scons (app1 "Option" (tp "T")) snil))) plain_field)) ->
  exists tr t, n = Some (tr, t) /\ implements (under (build_generics
    (one_field (TTuple (scons (tp "T") (scons (app1 "Option" (tp "T")) snil))) plain_field)) (fun _ _ => False)) tr t.
Proof.
  apply C76_compiles; try easy.
  - intros t a [[= <- <-]|[]]. easy.
  - cbn. intuition discriminate.
  - assert (T : forall tr, sql tr -> implements (all_bounded [txt "T"] (fun _ _ => False)) tr
      (TTuple (scons (tp "T") (scons (app1 "Option" (tp "T")) snil)))).
    { intros tr S. assert (P : implements (all_bounded [txt "T"] (fun _ _ => False)) tr (tp "T")).
      { apply i_known. right. split; [exact S|]. exists (txt "T"). split; [now left|reflexivity]. }
      apply i_tuple; [exact S|easy|cbn; lia|]. intros t [<-|[<-|[]]]; [exact P|]. apply i_wrap; [exact S|now left|exact P]. }
    intros n I. change (In n [Some (ToSql, TTuple (scons (tp "T") (scons (app1 "Option" (tp "T")) snil)));
      Some (FromSql, TTuple (scons (tp "T") (scons (app1 "Option" (tp "T")) snil)))]) in I.
    destruct I as [<-|[<-|[]]]; [exists ToSql|exists FromSql]; eexists; (split; [reflexivity|]); apply T; [now right|now left].
Qed.

(** A field whose type is an associated type of a parameter is bounded itself. *)
Theorem C76_associated : forall c facts f i u tr,
  c_bound (bc_attrs c) = None -> In f (bc_fields c) -> converted (snd f) ->
  In i (type_params (bc_generics c)) -> assoc_of i (fst f) u -> tr = FromSql \/ tr = ToSql ->
  implements (under (build_generics c) facts) tr (fst f).
Proof. exact assoc_enough. Qed.
Print Assumptions C76_associated.

Example C76_associated_example :
  implements (under (build_generics ex_struct) (fun _ _ => False)) ToSql
    (TPath onone false (gcons (txt "D") ANone (gcons (txt "Item") ANone gnil))).
Proof.
  apply (C76_associated ex_struct _ (TPath onone false (gcons (txt "D") ANone (gcons (txt "Item") ANone gnil)), plain_field) (txt "D")
    (TPath onone false (gcons (txt "D") ANone (gcons (txt "Item") ANone gnil)))); try easy.
  - cbn. tauto.
  - cbn. tauto.
  - constructor.
  - now right.
Qed.

(** [Self] in the field types, in bounds and in the where clause stands for the struct with its own
    parameters; nothing that depends on what [Self] is remains. *)
Theorem C76_self : forall ident g tys g' tys' self,
  ident <> txt "Self" -> ~ In (txt "Self") (type_params g) ->
  replace_receiver ident g tys = (g', tys') ->
  map (m_type self) tys' = map (m_type (receiver ident g)) tys /\
  map (m_pred self) (g_where g') = map (m_pred (receiver ident g)) (g_where g) /\
  map (m_param self) (g_params g') = map (m_param (receiver ident g)) (g_params g).
Proof. intros. now apply self_replaced. Qed.
Print Assumptions C76_self.

Example C76_self_example :
  snd (replace_receiver (txt "S") {| g_params := [GType (txt "T") bnil None]; g_where := [] |}
    [app1 "Vec" (tp "Self"); TPath onone false (gcons (txt "Self") ANone (gcons (txt "Item") ANone gnil));
     TArray (tp "u8") (EPath onone false (gcons (txt "Self") ANone (gcons (txt "N") ANone gnil)))]) =
  [app1 "Vec" (app1 "S" (tp "T"));
   TPath (osome (app1 "S" (tp "T"))) true (gcons (txt "Item") ANone gnil);
   TArray (tp "u8") (EPath (osome (app1 "S" (tp "T"))) true (gcons (txt "N") ANone gnil))].
Proof. vm_compute. reflexivity. Qed.

(** False: that the generated code compiles whenever every parameter is convertible.  A field that is
    received but not sent in the ordinary way ([skip_serializing], [serialize_with]) needs [FromSql]
    and gets no bound. *)
Theorem C76_received_only_refuted : forall c facts i a,
  c_bound (bc_attrs c) = None -> c_from (bc_attrs c) = None -> c_try_from (bc_attrs c) = None ->
  In (path1 i, a) (bc_fields c) -> (f_skip_ser a = true \/ exists p, f_ser a = Some p) ->
  f_skip_de a = false -> f_de a = None -> f_nested a = false -> f_flatten a = false ->
  (* nothing else is said about the parameter *)
  unbounded c (path1 i) -> ~ facts FromSql (path1 i) -> ~ In i (map txt plain_types) ->
  (forall t b, In (t, b) (bc_fields c) -> converted b -> ~ uses i t) ->
  In (Some (FromSql, path1 i)) (impl_needs c) /\
  ~ implements (under (build_generics c) facts) FromSql (path1 i).
Proof.
  intros c facts i a B F1 F2 I S D E N FL U K P NU. split.
  - unfold impl_needs. rewrite F1, F2. apply in_or_app. right. apply in_flat_map. exists (path1 i, a). split; [exact I|].
    unfold deserialize_needs. rewrite D, FL, N, E. cbn [given app]. now left.
  - apply not_converted_unimplemented; auto.
Qed.
Print Assumptions C76_received_only_refuted.

Example C76_received_only_example :
  In (Some (FromSql, tp "B")) (impl_needs ex_struct) /\
  ~ implements (under (build_generics ex_struct) (fun _ _ => False)) FromSql (tp "B").
Proof.
  apply (C76_received_only_refuted ex_struct (fun _ _ => False) (txt "B") (with_attrs true false false)); try easy.
  - cbn. tauto.
  - now left.
  - vm_compute. intros H. repeat (destruct H as [H|H]; [discriminate|]). exact H.
  - intros t b I C U.
    assert (R : In (txt "B") (relevant (type_params (bc_generics ex_struct)) (bc_fields ex_struct))).
    { apply relevant_spec. split; [cbn; tauto|]. now exists t, b. }
    vm_compute in R. repeat (destruct R as [R|R]; [discriminate|]). exact R.
Qed.

(** A flattened parameter needs [Row] and gets the conversion traits. *)
Theorem C76_flatten_refuted : forall c facts i a,
  c_bound (bc_attrs c) = None -> c_into (bc_attrs c) = None ->
  In (path1 i, a) (bc_fields c) -> f_flatten a = true -> f_nested a = false -> f_skip_ser a = false ->
  unbounded c (path1 i) -> ~ facts Row (path1 i) -> ~ In i (map txt plain_types) ->
  In (Some (Row, path1 i)) (impl_needs c) /\
  ~ implements (under (build_generics c) facts) Row (path1 i).
Proof.
  intros c facts i a B IN I FL N S U K P. split.
  - unfold impl_needs. rewrite IN. apply in_or_app. left. apply in_flat_map. exists (path1 i, a). split; [exact I|].
    unfold serialize_needs. rewrite S, N, FL. now left.
  - apply not_converted_unimplemented; auto. intros [E|E]; discriminate.
Qed.
Print Assumptions C76_flatten_refuted.

(** A [Vec] of a parameter needs the parameter to be ['static], which is not among the bounds. *)
Theorem C76_vec_refuted : forall c facts i a,
  c_bound (bc_attrs c) = None -> c_into (bc_attrs c) = None ->
  In (app1 "Vec" (path1 i), a) (bc_fields c) -> f_skip_ser a = false -> f_ser a = None -> f_nested a = false -> f_flatten a = false ->
  unbounded c (app1 "Vec" (path1 i)) -> unbounded c (path1 i) -> ~ facts ToSql (app1 "Vec" (path1 i)) -> ~ facts Static (path1 i) ->
  In (Some (ToSql, app1 "Vec" (path1 i))) (impl_needs c) /\
  ~ implements (under (build_generics c) facts) ToSql (app1 "Vec" (path1 i)).
Proof.
  intros c facts i a B IN I S SE N FL U U' K K'. split.
  - unfold impl_needs. rewrite IN. apply in_or_app. left. apply in_flat_map. exists (app1 "Vec" (path1 i), a). split; [exact I|].
    unfold serialize_needs. rewrite S, N, FL, SE. now left.
  - apply vec_unimplemented; auto; [now right|]. intros u. split; discriminate.
Qed.
Print Assumptions C76_vec_refuted.

(** [PhantomData] is passed over when looking for bounds, but it has no conversions. *)
Theorem C76_phantom_refuted : forall c facts t a,
  c_bound (bc_attrs c) = None -> c_into (bc_attrs c) = None ->
  In (app1 "PhantomData" t, a) (bc_fields c) -> f_skip_ser a = false -> f_ser a = None -> f_nested a = false -> f_flatten a = false ->
  unbounded c (app1 "PhantomData" t) -> ~ facts ToSql (app1 "PhantomData" t) ->
  In (Some (ToSql, app1 "PhantomData" t)) (impl_needs c) /\
  ~ implements (under (build_generics c) facts) ToSql (app1 "PhantomData" t).
Proof.
  intros c facts t a B IN I S SE N FL U K. split.
  - unfold impl_needs. rewrite IN. apply in_or_app. left. apply in_flat_map. exists (app1 "PhantomData" t, a). split; [exact I|].
    unfold serialize_needs. rewrite S, N, FL, SE. now left.
  - now apply phantom_unimplemented.
Qed.
Print Assumptions C76_phantom_refuted.

(** A nested field puts its element type into a function that has no type parameters, so the
    element must not mention one. *)
Theorem C76_nested_refuted : forall c t a i,
  c_into (bc_attrs c) = None -> (forall f, In f (bc_fields c) -> f_flatten (snd f) = false) ->
  In (app1 "Vec" t, a) (bc_fields c) -> f_nested a = true -> f_skip_ser a = false ->
  uses i t -> In i (type_params (bc_generics c)) ->
  exists u, In (Some u) (const_fn_types c) /\ uses i u.
Proof.
  intros c t a i IN NF I N S U P. exists t. split; [|exact U]. unfold const_fn_types.
  assert (E : existsb (fun f => f_flatten (snd f)) (bc_fields c) = false).
  { destruct (existsb _ _) eqn:E; [|reflexivity]. apply existsb_exists in E as (f & J & K). now rewrite (NF f J) in K. }
  rewrite E, IN. apply in_map_iff. exists (app1 "Vec" t, a). split; [reflexivity|]. apply filter_In. split; [exact I|].
  cbn [snd]. now rewrite S, N.
Qed.
Print Assumptions C76_nested_refuted.

Example C76_flatten_example :
  In (Some (Row, tp "T")) (impl_needs (one_field (tp "T") (with_attrs false true false))) /\
  ~ implements (under (build_generics (one_field (tp "T") (with_attrs false true false))) (fun _ _ => False)) Row (tp "T").
Proof.
  apply (C76_flatten_refuted _ (fun _ _ => False) (txt "T") (with_attrs false true false)); try easy.
  - now left.
  - vm_compute. intros H. repeat (destruct H as [H|H]; [discriminate|]). exact H.
Qed.
Example C76_vec_example :
  ~ implements (under (build_generics (one_field (app1 "Vec" (tp "T")) plain_field)) (fun _ _ => False)) ToSql (app1 "Vec" (tp "T")).
Proof.
  apply (C76_vec_refuted _ (fun _ _ => False) (txt "T") plain_field); try easy. now left.
Qed.
Example C76_phantom_example :
  ~ implements (under (build_generics (one_field (app1 "PhantomData" (tp "T")) plain_field)) (fun _ _ => False)) ToSql (app1 "PhantomData" (tp "T")).
Proof.
  apply (C76_phantom_refuted _ (fun _ _ => False) (tp "T") plain_field); try easy. now left.
Qed.
Example C76_nested_example : exists u,
  In (Some u) (const_fn_types (one_field (app1 "Vec" (tp "T")) (with_attrs false false true))) /\ uses (txt "T") u.
Proof.
  apply (C76_nested_refuted _ (tp "T") (with_attrs false false true)); try easy; [|now left| |now left].
  - intros f [<-|[]]. reflexivity.
  - apply uses_here, names_path. split; [easy|]. split; [|now eexists].
    intros (l & a & E). destruct l as [|x [|]]; cbn in E; [|easy..]. discriminate.
Qed.
