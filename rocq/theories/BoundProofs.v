(** Proofs about the derive macro's treatment of generics. *)
From Coq Require Import String Lia.
From Verif Require Import Base Types Text Rename Attrs Bounds BoundSpec.
Local Open Scope list_scope.
Local Open Scope N_scope.

Scheme sty_mut := Induction for sty Sort Prop
with stys_mut := Induction for stys Sort Prop
with osty_mut := Induction for osty Sort Prop
with segs_mut := Induction for segs Sort Prop
with sargs_mut := Induction for sargs Sort Prop
with gargs_mut := Induction for gargs Sort Prop
with sbounds_mut := Induction for sbounds Sort Prop
with expr_mut := Induction for expr Sort Prop
with exprs_mut := Induction for exprs Sort Prop.
Combined Scheme syn_ind from sty_mut, stys_mut, osty_mut, segs_mut, sargs_mut, gargs_mut, sbounds_mut, expr_mut, exprs_mut.

Lemma mem_in x l : mem x l = true <-> In x l.
Proof.
  induction l as [|y l IH]; cbn [mem In]; [split; easy|].
  rewrite orb_true_iff, IH, text_eqb_eq. intuition congruence.
Qed.

Lemma last_ident_spec l : forall i, last_ident l = Some i <-> exists l' a, segments_of l = l' ++ [(i, a)].
Proof.
  induction l as [|j b l IH]; intros i.
  - cbn. split; [easy|]. intros (l' & a & E). now destruct l'.
  - destruct l as [|k c l].
    + cbn. split.
      * intros [= ->]. now exists [], b.
      * intros (l' & a & E). destruct l' as [|x [|]]; cbn in E; [congruence|easy..].
    + change (last_ident (gcons j b (gcons k c l))) with (last_ident (gcons k c l)). rewrite IH. cbn [segments_of].
      split.
      * intros (l' & a & E). exists ((j, b) :: l'), a. cbn. now f_equal.
      * intros (l' & a & E). destruct l' as [|x l']; cbn in E; [easy|]. injection E as _ E. now exists l', a.
Qed.

Lemma is_phantom_spec l : is_phantom l = true <-> phantom l.
Proof.
  unfold is_phantom, phantom. destruct (last_ident l) as [i|] eqn:E.
  - rewrite text_eqb_eq. split.
    + intros ->. apply last_ident_spec in E as (l' & a & E). now exists l', a.
    + intros (l' & a & F). assert (G : last_ident l = Some (txt "PhantomData")) by (apply last_ident_spec; now exists l', a).
      congruence.
  - split; [easy|]. intros (l' & a & F).
    assert (G : last_ident l = Some (txt "PhantomData")) by (apply last_ident_spec; now exists l', a). congruence.
Qed.
Lemma not_phantom l : is_phantom l = false <-> ~ phantom l.
Proof. rewrite <- is_phantom_spec. destruct (is_phantom l); split; congruence. Qed.

Lemma own_name_spec ps lead l i : ~ phantom l -> In i (own_name ps lead l) <-> In i ps /\ just i lead l.
Proof.
  intros NP. unfold own_name, just. destruct l as [|j a [|k b l]].
  - cbn. split; [easy|]. intros (_ & _ & _ & a & E). discriminate.
  - destruct lead; cbn [negb andb].
    + split; [easy|]. intros (_ & H & _). discriminate.
    + destruct (mem j ps) eqn:M.
      * apply mem_in in M. cbn [In]. split.
        -- intros [->|[]]. repeat split; eauto.
        -- intros (_ & _ & _ & c & [= -> ->]). now left.
      * split; [easy|]. intros (I & _ & _ & c & [= -> ->]). apply mem_in in I. congruence.
  - split; [easy|]. intros (_ & _ & _ & c & E). discriminate.
Qed.

Section Visit.
  Variables (ps : list text) (i : text).
  Definition has (l : list sty) : Prop := exists u, In u l /\ uses i u.
  Definition seg_has (l : segs) : Prop := exists j a, In (j, a) (segments_of l) /\ has (args_of a).
  Definition path_has (lead : bool) (l : segs) : Prop := ~ phantom l /\ (just i lead l \/ seg_has l).

  Lemma visit_path_spec lead l :
    (In i (visit_segments ps l) <-> In i ps /\ seg_has l) ->
    (In i (if is_phantom l then [] else own_name ps lead l ++ visit_segments ps l) <-> In i ps /\ path_has lead l).
  Proof.
    intros H. unfold path_has. destruct (is_phantom l) eqn:P.
    - apply is_phantom_spec in P. split; [easy|]. tauto.
    - apply not_phantom in P. rewrite in_app_iff, H, (own_name_spec ps lead l i P). tauto.
  Qed.

  Lemma seg_in_path l : ~ phantom l -> seg_has l -> exists u, in_path u l /\ uses i u.
  Proof. intros NP (j & a & I & u & J & K). exists u. split; [|easy]. now apply (in_path_arg u l j a). Qed.
  Lemma in_path_seg u l : in_path u l -> uses i u -> ~ phantom l /\ seg_has l.
  Proof. intros [j a NP I J] U. split; [easy|]. exists j, a. split; [easy|]. now exists u. Qed.

  Lemma visit_spec :
    (forall t, In i (visit_type ps t) <-> In i ps /\ uses i t) /\
    (forall l, In i (visit_types ps l) <-> In i ps /\ has (types_of l)) /\
    (forall o, In i (visit_return ps o) <-> In i ps /\ has (opt_of o)) /\
    (forall l, In i (visit_segments ps l) <-> In i ps /\ seg_has l) /\
    (forall a, In i (visit_args ps a) <-> In i ps /\ has (args_of a)) /\
    (forall l, In i (visit_gargs ps l) <-> In i ps /\ has (gargs_of l)) /\
    (forall b, In i (visit_bounds ps b) <-> In i ps /\ exists lead l, In (lead, l) (traits_of b) /\ path_has lead l) /\
    (forall e : expr, True) /\ (forall l : exprs, True).
  Proof.
    assert (ONE : forall t u, (forall v, part v t <-> v = u) -> (~ names i t) ->
      (In i (visit_type ps u) <-> In i ps /\ uses i u) -> (In i (visit_type ps u) <-> In i ps /\ uses i t)).
    { intros t u P NN H. rewrite H. split; intros [A B]; (split; [easy|]).
      - apply (uses_part i u t); [now apply P|easy].
      - inversion B as [t' N|v t' Q U]; subst; [now elim NN|]. apply P in Q as ->. easy. }
    assert (LIST : forall (l : list sty) (v : list text), (In i v <-> In i ps /\ has l) -> forall t w,
      (In i w <-> In i ps /\ uses i t) -> (In i (w ++ v) <-> In i ps /\ has (t :: l))).
    { intros l v H t w K. rewrite in_app_iff, H, K. unfold has. split.
      - intros [[A B]|[A (u & I & U)]]; (split; [easy|]); [exists t|exists u]; split; try easy; [now left|now right].
      - intros [A (u & [<-|I] & U)]; [left; easy|right; split; [easy|now exists u]]. }
    apply syn_ind.
    - intros e He n _. apply (ONE (TArray e n) e); [|intros N; inversion N|exact He].
      intros v. split; [intros P; now inversion P|intros ->; constructor].
    - intros l Hl o Ho. cbn [visit_type]. rewrite in_app_iff, Hl, Ho. split.
      + intros [[A (u & I & U)]|[A (u & I & U)]]; (split; [easy|]); apply (uses_part i u); try exact U.
        * now apply part_input.
        * destruct o as [|t]; [elim I|]. destruct I as [->|[]]. apply part_output.
      + intros [A B]. inversion B as [t N|u t P U]; subst; [inversion N|]. inversion P; subst.
        * left. split; [easy|]. now exists u.
        * right. split; [easy|]. exists u. split; [now left|easy].
    - intros e He. apply (ONE (TGroup e) e); [|intros N; inversion N|exact He].
      intros v. split; [intros P; now inversion P|intros ->; constructor].
    - intros b Hb. cbn [visit_type]. rewrite Hb. split.
      + intros [A (lead & l & I & NP & [J|S])]; (split; [easy|]).
        * apply uses_here. now apply (names_impl i b lead l).
        * destruct (seg_in_path l NP S) as (u & P & U). apply (uses_part i u); [|easy]. now apply (part_impl u b lead l).
      + intros [A B]; (split; [easy|]). inversion B as [t N|u t P U]; subst.
        * inversion N as [|b' lead l I J|]; subst. exists lead, l. split; [easy|]. split; [apply J|now left].
        * inversion P as [| | | | | | | | | | |b' lead l I J|]; subst. exists lead, l. split; [easy|].
          destruct (in_path_seg u l J U) as [NP S]. split; [easy|now right].
    - intros s. cbn. split; [easy|]. intros [_ B]. inversion B as [t N|u t P U]; subst; [inversion N|inversion P].
    - intros e He. apply (ONE (TParen e) e); [|intros N; inversion N|exact He].
      intros v. split; [intros P; now inversion P|intros ->; constructor].
    - intros q Hq lead l Hl. cbn [visit_type]. rewrite in_app_iff, Hq, (visit_path_spec lead l Hl). split.
      + intros [[A (u & I & U)]|[A (NP & [J|S])]]; (split; [easy|]).
        * destruct q as [|t]; [elim I|]. destruct I as [->|[]]. apply (uses_part i u); [apply part_qself|easy].
        * apply uses_here. now apply names_path.
        * destruct (seg_in_path l NP S) as (u & P & U). apply (uses_part i u); [|easy]. now apply part_arg.
      + intros [A B]. inversion B as [t N|u t P U]; subst.
        * inversion N as [q' lead' l' J| |]; subst. right. split; [easy|]. split; [apply J|now left].
        * inversion P as [| | | | | | | | |lead' l'|q' lead' l' J| |]; subst.
          -- left. split; [easy|]. exists u. split; [now left|easy].
          -- destruct (in_path_seg u l J U) as [NP S]. right. split; [easy|]. split; [easy|now right].
    - intros e He. apply (ONE (TPtr e) e); [|intros N; inversion N|exact He].
      intros v. split; [intros P; now inversion P|intros ->; constructor].
    - intros e He. apply (ONE (TRef e) e); [|intros N; inversion N|exact He].
      intros v. split; [intros P; now inversion P|intros ->; constructor].
    - intros e He. apply (ONE (TSlice e) e); [|intros N; inversion N|exact He].
      intros v. split; [intros P; now inversion P|intros ->; constructor].
    - intros b Hb. cbn [visit_type]. rewrite Hb. split.
      + intros [A (lead & l & I & NP & [J|S])]; (split; [easy|]).
        * apply uses_here. now apply (names_dyn i b lead l).
        * destruct (seg_in_path l NP S) as (u & P & U). apply (uses_part i u); [|easy]. now apply (part_dyn u b lead l).
      + intros [A B]; (split; [easy|]). inversion B as [t N|u t P U]; subst.
        * inversion N as [| |b' lead l I J]; subst. exists lead, l. split; [easy|]. split; [apply J|now left].
        * inversion P as [| | | | | | | | | | | |b' lead l I J]; subst. exists lead, l. split; [easy|].
          destruct (in_path_seg u l J U) as [NP S]. split; [easy|now right].
    - intros l Hl. cbn [visit_type]. rewrite Hl. split.
      + intros [A (u & I & U)]; (split; [easy|]). apply (uses_part i u); [now apply part_tuple|easy].
      + intros [A B]; (split; [easy|]). inversion B as [t N|u t P U]; subst; [inversion N|]. inversion P; subst. now exists u.
    - intros s. cbn. split; [easy|]. intros [_ B]. inversion B as [t N|u t P U]; subst; [inversion N|inversion P].
    - cbn. split; [easy|]. intros [_ (u & [] & _)].
    - intros t Ht l Hl. now apply LIST.
    - cbn. split; [easy|]. intros [_ (u & [] & _)].
    - intros t Ht. cbn [visit_return opt_of]. rewrite Ht. unfold has. split; intros [A B]; (split; [easy|]).
      + exists t. split; [now left|easy].
      + now destruct B as (u & [->|[]] & U).
    - cbn. split; [easy|]. intros [_ (j & a & [] & _)].
    - intros j a Ha l Hl. cbn [visit_segments]. rewrite in_app_iff, Ha, Hl. unfold seg_has. cbn [segments_of]. split.
      + intros [[A B]|[A (k & c & I & B)]]; (split; [easy|]); [exists j, a|exists k, c]; split; try easy; [now left|now right].
      + intros [A (k & c & [[= -> ->]|I] & B)]; [left; easy|right; split; [easy|now exists k, c]].
    - cbn. split; [easy|]. intros [_ (u & [] & _)].
    - intros l Hl. exact Hl.
    - intros l Hl o Ho. cbn [visit_args args_of]. rewrite in_app_iff, Hl, Ho. unfold has. split.
      + intros [[A (u & I & U)]|[A (u & I & U)]]; (split; [easy|]); exists u; rewrite in_app_iff; tauto.
      + intros [A (u & I & U)]. apply in_app_iff in I as [I|I]; [left|right]; (split; [easy|now exists u]).
    - cbn. split; [easy|]. intros [_ (u & [] & _)].
    - intros t Ht l Hl. now apply LIST.
    - intros j t Ht l Hl. now apply LIST.
    - intros s l Hl. exact Hl.
    - cbn. split; [easy|]. intros [_ (lead & l & [] & _)].
    - intros lead l Hl b Hb. cbn [visit_bounds traits_of]. rewrite in_app_iff, Hb, (visit_path_spec lead l Hl). split.
      + intros [[A B]|[A (x & y & I & B)]]; (split; [easy|]); [exists lead, l|exists x, y]; split; try easy; [now left|now right].
      + intros [A (x & y & [[= -> ->]|I] & B)]; [left; easy|right; split; [easy|now exists x, y]].
    - intros n b Hb. exact Hb.
    - easy. - easy. - easy. - easy. - easy. - easy. - easy. - easy. - easy. - easy. - easy.
  Qed.
End Visit.

(* ---------------- the where clause ---------------- *)
Lemma needs_converted f : needs_serialize_bound f = true <-> converted f.
Proof.
  unfold needs_serialize_bound, converted, given.
  destruct (f_skip_ser f), (f_ser f), (f_bound f); cbn; intuition congruence.
Qed.

Lemma assoc_usage_spec ps t :
  (exists i u, In i ps /\ assoc_of i t u /\ assoc_usage ps t = [u]) \/
  ((forall i u, In i ps -> ~ assoc_of i t u) /\ assoc_usage ps t = []).
Proof.
  induction t; try (right; split; [intros i u _ A; inversion A|reflexivity]).
  - destruct IHt as [(i & u & I & A & E)|[N E]].
    + left. exists i, u. repeat split; try easy. now constructor.
    + right. split; [|exact E]. intros i u I A. inversion A; subst. now apply (N i u).
  - destruct segments as [|i a [|j b l]]; try (right; split; [intros k u _ A; inversion A|reflexivity]).
    unfold assoc_usage. cbn [ungroup]. destruct (mem i ps) eqn:M.
    + left. eexists i, _. repeat split; [now apply mem_in|constructor].
    + right. split; [|reflexivity]. intros k u I A. inversion A; subst. apply mem_in in I. congruence.
Qed.

Lemma subseq_filter {A} (p : A -> bool) l : subseq (filter p l) l.
Proof. induction l as [|x l IH]; cbn; [constructor|]. destruct (p x); now constructor. Qed.

Lemma type_params_without g : type_params (without_defaults g) = type_params g.
Proof.
  unfold type_params, without_defaults. cbn [g_params].
  induction (g_params g) as [|[]]; cbn; congruence.
Qed.

Definition field_bounds (l : list bfield) : list wpred :=
  flat_map (fun f => match f_bound (snd f) with Some l => l | None => [] end) l.
Definition relevant (ps : list text) (l : list bfield) : list text :=
  flat_map (fun f => visit_type ps (fst f)) (filter (fun f => needs_serialize_bound (snd f)) l).
Definition inferred (ps : list text) (l : list bfield) : list sty :=
  map path1 (filter (fun i => mem i (relevant ps l)) ps) ++
  flat_map (fun f => assoc_usage ps (fst f)) (filter (fun f => needs_serialize_bound (snd f)) l).

Lemma build_params c : Forall2 same_param (g_params (bc_generics c)) (g_params (build_generics c)).
Proof.
  assert (E : g_params (build_generics c) = g_params (without_defaults (bc_generics c))).
  { unfold build_generics. now destruct (c_bound (bc_attrs c)). }
  rewrite E. unfold without_defaults. cbn [g_params]. induction (g_params (bc_generics c)) as [|[]]; cbn; constructor; try constructor; easy.
Qed.

Lemma build_where c :
  g_where (build_generics c) = g_where (bc_generics c) ++ field_bounds (bc_fields c) ++
    match c_bound (bc_attrs c) with Some l => l | None => map both (inferred (type_params (bc_generics c)) (bc_fields c)) end.
Proof.
  unfold build_generics. destruct (c_bound (bc_attrs c)) as [l|].
  - cbn [with_where_predicates with_where_predicates_from_fields g_where without_defaults]. now rewrite <- app_assoc.
  - unfold with_bound. cbn [with_where_predicates with_where_predicates_from_fields g_where g_params].
    rewrite <- app_assoc. unfold inferred, relevant, with_where_predicates_from_fields, with_where_predicates.
    rewrite <- (type_params_without (bc_generics c)). reflexivity.
Qed.

Lemma relevant_spec ps l i : In i (relevant ps l) <-> In i ps /\ exists t a, In (t, a) l /\ converted a /\ uses i t.
Proof.
  unfold relevant. rewrite in_flat_map. split.
  - intros ([t a] & I & V). apply filter_In in I as [I C]. apply needs_converted in C. cbn [fst] in V.
    apply (proj1 (visit_spec ps i)) in V as [P U]. split; [easy|]. now exists t, a.
  - intros [P (t & a & I & C & U)]. exists (t, a). split; [apply filter_In; split; [easy|now apply needs_converted]|].
    now apply (proj1 (visit_spec ps i)).
Qed.

Lemma inferred_spec ps l : exists is ll,
  inferred ps l = map path1 is ++ concat ll /\
  subseq is ps /\ (forall i, In i is <-> In i ps /\ exists t a, In (t, a) l /\ converted a /\ uses i t) /\
  Forall2 (assoc_bound ps) l ll.
Proof.
  exists (filter (fun i => mem i (relevant ps l)) ps).
  exists (map (fun f => if needs_serialize_bound (snd f) then assoc_usage ps (fst f) else []) l).
  split; [|split; [|split]].
  - unfold inferred. f_equal. clear. induction l as [|f l IH]; cbn [filter map concat flat_map]; [reflexivity|].
    destruct (needs_serialize_bound (snd f)); cbn [flat_map app]; now rewrite IH.
  - apply subseq_filter.
  - intros i. rewrite filter_In, mem_in, relevant_spec. tauto.
  - induction l as [|[t a] l IH]; cbn [map]; constructor; [|exact IH]. cbn [fst snd]. unfold assoc_bound. cbn [fst snd].
    destruct (needs_serialize_bound a) eqn:E.
    + destruct (assoc_usage_spec ps t) as [(i & u & I & A & ->)|[N ->]].
      * left. exists i, u. apply needs_converted in E. tauto.
      * right. split; [now right|reflexivity].
    + right. split; [left|reflexivity]. rewrite <- needs_converted. congruence.
Qed.

(* ---------------- enough ---------------- *)
Lemma bound_both g t tr : sql tr -> In (both t) (g_where g) -> bound_in g tr t.
Proof.
  intros [->| ->] I.
  - exists "FromSql"%string, sql_bounds. repeat split; [exact I|now left].
  - exists "ToSql"%string, sql_bounds. repeat split; [exact I|right; now left].
Qed.

Lemma uses_app1 n t i : txt n <> txt "PhantomData" -> uses i t -> uses i (app1 n t).
Proof.
  intros N U. apply (uses_part i t); [|easy]. apply part_arg. apply (in_path_arg t _ (txt n) (AAngle (atype t anil))).
  - intros (l & a & E). destruct l as [|x [|]]; cbn in E; [|easy..]. now injection E as E _.
  - now left.
  - now left.
Qed.
Lemma uses_app2 n t u i : txt n <> txt "PhantomData" -> uses i t \/ uses i u -> uses i (app2 n t u).
Proof.
  intros N U.
  assert (P : forall v, v = t \/ v = u -> part v (app2 n t u)).
  { intros v V. apply part_arg. apply (in_path_arg v _ (txt n) (AAngle (atype t (atype u anil)))).
    - intros (l & a & E). destruct l as [|x [|]]; cbn in E; [|easy..]. now injection E as E _.
    - now left.
    - cbn. destruct V as [->| ->]; tauto. }
  destruct U as [U|U]; [apply (uses_part i t)|apply (uses_part i u)]; auto.
Qed.

Lemma enough g facts ps tr t :
  implements (all_bounded ps facts) tr t ->
  (forall i, In i ps -> uses i t -> In (both (path1 i)) (g_where g)) ->
  ~ In (txt "PhantomData") ps ->
  implements (under g facts) tr t.
Proof.
  intros H G NP. revert G. induction H; intros G;
    try match goal with n : string |- _ => assert (txt n <> txt "PhantomData") as NN
      by (intros E; cbn [In] in *; intuition (subst; discriminate)) end.
  - destruct H as [H|(S & i & I & ->)]; [apply i_known; now left|].
    apply i_known. right. apply bound_both; [easy|]. apply G; [easy|]. apply uses_here, names_path.
    split; [easy|]. split; [|now eexists].
    intros (l & a & E). destruct l as [|x [|]]; cbn in E; [|easy..]. injection E as -> _. easy.
  - now apply i_plain.
  - apply i_str.
  - now apply i_const.
  - assert (N : txt "Vec" <> txt "PhantomData") by discriminate.
    apply i_vec; [easy|apply IHimplements1|apply IHimplements2]; intros i I U; (apply G; [easy|now apply uses_app1]).
  - apply i_wrap; [easy..|apply IHimplements]; intros i I U; (apply G; [easy|now apply uses_app1]).
  - apply i_map_to; [easy|apply IHimplements1|apply IHimplements2]; intros i I U;
      (apply G; [easy|apply uses_app2; tauto]).
  - apply i_hash_from; [easy|apply IHimplements1|apply IHimplements2|apply IHimplements3]; intros i I U;
      (apply G; [easy|apply uses_app2; tauto]).
  - assert (N : txt "BTreeMap" <> txt "PhantomData") by discriminate.
    apply i_btree_from; [apply IHimplements1|apply IHimplements2|apply IHimplements3]; intros i I U;
      (apply G; [easy|apply uses_app2; tauto]).
  - apply i_array_to. apply IHimplements. intros i I U. apply G; [easy|]. apply (uses_part i t); [constructor|easy].
  - apply i_array_from; [apply IHimplements1|apply IHimplements2|apply IHimplements3]; intros i I U;
      (apply G; [easy|]; apply (uses_part i t); [constructor|easy]).
  - apply i_ref; [apply IHimplements1|apply IHimplements2]; intros i I U;
      (apply G; [easy|]; apply (uses_part i t); [constructor|easy]).
  - apply i_tuple; [easy..|]. intros t T. apply (H3 t T). intros i I U. apply G; [easy|].
    apply (uses_part i t); [now constructor|easy].
  - assert (N : txt "Json" <> txt "PhantomData") by discriminate.
    apply i_json; [easy|]. apply IHimplements. intros i I U. apply G; [easy|now apply uses_app1].
  - assert (N : txt "UnitValue" <> txt "PhantomData") by discriminate.
    apply i_unit; [apply IHimplements1|apply IHimplements2]; intros i I U; (apply G; [easy|now apply uses_app1]).
  - apply i_group. apply IHimplements. intros i I U. apply G; [easy|]. apply (uses_part i t); [constructor|easy].
  - apply i_paren. apply IHimplements. intros i I U. apply G; [easy|]. apply (uses_part i t); [constructor|easy].
Qed.

Lemma unwrap_vec t u : unwrap_vec_type t = Some u -> t = app1 "Vec" u.
Proof.
  unfold unwrap_vec_type. destruct t as [| | | | | |[|] [|] [|i [|[|v [| | |]| |]|] [|]]| | | | | |]; try discriminate.
  destruct (text_eqb i (txt "Vec")) eqn:E; [|discriminate]. apply text_eqb_eq in E as ->. now intros [= ->].
Qed.

(** The type of an obligation is the field's type or the element type of its [Vec]. *)
Lemma needs_type f tr t : In (Some (tr, t)) (serialize_needs f ++ deserialize_needs f) ->
  t = fst f \/ fst f = app1 "Vec" t.
Proof.
  destruct f as [u a].
  assert (E : forall x, In (Some (tr, t)) (elem_needs x) -> x = app1 "Vec" t).
  { intros x. unfold elem_needs. destruct (unwrap_vec_type x) as [v|] eqn:V; cbn; [|intuition discriminate].
    intros [[= _ ->]|[]]. now apply unwrap_vec. }
  unfold serialize_needs, deserialize_needs, default_needs. cbn [fst snd]. rewrite in_app_iff.
  intros [H|H].
  - destruct (f_skip_ser a); [elim H|]. apply in_app_iff in H as [H|H].
    + destruct (f_nested a); [right; auto|]. destruct (f_flatten a); [|elim H]. destruct H as [[= _ ->]|[]]. now left.
    + destruct (given (f_ser a)); [elim H|]. destruct (f_nested a); [right; auto|].
      destruct (f_flatten a); destruct H as [[= _ ->]|[]]; now left.
  - assert (D : In (Some (tr, t)) (match f_default a with DDefault => [Some (Dflt, u)] | _ => [] end) -> t = u \/ u = app1 "Vec" t).
    { destruct (f_default a); cbn; try tauto. intros [[= _ ->]|[]]. now left. }
    apply in_app_iff in H as [H|H].
    + destruct (f_flatten a); [|elim H]. destruct H as [[= _ ->]|[]]. now left.
    + destruct (f_skip_de a); [auto|]. destruct (f_flatten a); [elim H|]. apply in_app_iff in H as [H|H]; [|auto].
      destruct (f_nested a); [right; auto|]. destruct (given (f_de a)); [elim H|]. destruct H as [[= _ ->]|[]]. now left.
Qed.

Lemma in_inferred c t : c_bound (bc_attrs c) = None ->
  In t (inferred (type_params (bc_generics c)) (bc_fields c)) -> In (both t) (g_where (build_generics c)).
Proof.
  intros B I. rewrite build_where, B. apply in_or_app. right. apply in_or_app. right. now apply in_map.
Qed.

Lemma enough_container c facts f : c_bound (bc_attrs c) = None -> In f (bc_fields c) -> converted (snd f) ->
  ~ In (txt "PhantomData") (type_params (bc_generics c)) ->
  forall tr t, In (Some (tr, t)) (serialize_needs f ++ deserialize_needs f) ->
  implements (all_bounded (type_params (bc_generics c)) facts) tr t ->
  implements (under (build_generics c) facts) tr t.
Proof.
  intros B I C NP tr t N H. apply (enough _ facts (type_params (bc_generics c))); [exact H| |exact NP].
  intros i P U. apply in_inferred; [exact B|]. unfold inferred. apply in_or_app. left. apply in_map.
  apply filter_In. split; [exact P|]. apply mem_in, relevant_spec. split; [exact P|].
  exists (fst f), (snd f). destruct f as [u a]. cbn [fst snd] in *. split; [exact I|]. split; [exact C|].
  apply needs_type in N as [->|N]; cbn [fst] in *; [exact U|]. rewrite N. now apply uses_app1.
Qed.

Lemma assoc_implements known tr : forall i t u, assoc_of i t u -> implements known tr u -> implements known tr t.
Proof. intros i t u A H. induction A; [exact H|]. apply i_group. auto. Qed.
Lemma assoc_enough c facts f i u tr : c_bound (bc_attrs c) = None -> In f (bc_fields c) -> converted (snd f) ->
  In i (type_params (bc_generics c)) -> assoc_of i (fst f) u -> sql tr ->
  implements (under (build_generics c) facts) tr (fst f).
Proof.
  intros B I C P A S. apply (assoc_implements _ tr i (fst f) u A). apply i_known. right. apply bound_both; [exact S|].
  apply in_inferred; [exact B|]. destruct (inferred_spec (type_params (bc_generics c)) (bc_fields c)) as (is & ll & -> & _ & _ & F).
  apply in_or_app. right. clear - F I C P A. induction F as [|g l ls lls H F IH]; [elim I|]. cbn [concat]. apply in_or_app.
  destruct I as [->|I]; [left|right; now apply IH].
  assert (U : forall j v, assoc_of j (fst f) v -> v = u).
  { clear - A. intros j v. revert A. generalize (fst f). intros t A. revert j v. induction A; intros k v B; inversion B; subst; eauto. }
  destruct H as [(j & v & _ & _ & A' & ->)|[[N|N] _]]; [rewrite (U j v A'); now left|now elim N|now elim (N i u)].
Qed.

(* ---------------- not enough ---------------- *)
Lemma implements_param known tr i : implements known tr (path1 i) ->
  known tr (path1 i) \/ (sql tr /\ In i (map txt plain_types)).
Proof.
  intros H. inversion H; subst; try (left; assumption).
  right. split; [assumption|]. now apply in_map.
Qed.

Lemma bound_in_build c tr t : c_bound (bc_attrs c) = None -> bound_in (build_generics c) tr t ->
  (exists b, In (WType t b) (g_where (bc_generics c) ++ field_bounds (bc_fields c))) \/
  (sql tr /\ In t (inferred (type_params (bc_generics c)) (bc_fields c))).
Proof.
  intros B (n & b & N & I & J). rewrite build_where, B, app_assoc in I. apply in_app_iff in I as [I|I].
  - left. now exists b.
  - right. split; [destruct tr; try easy; [now left|now right]|].
    apply in_map_iff in I as (u & E & I). unfold both in E. congruence.
Qed.

(** No where clause written by the user is about [t]. *)
Definition unbounded (c : bcontainer) (t : sty) : Prop :=
  forall b, ~ In (WType t b) (g_where (bc_generics c) ++ field_bounds (bc_fields c)).

Lemma inferred_param ps l i : In (path1 i) (inferred ps l) <-> In i ps /\ exists t a, In (t, a) l /\ converted a /\ uses i t.
Proof.
  destruct (inferred_spec ps l) as (is & ll & -> & _ & S & F). rewrite in_app_iff. split.
  - intros [I|I].
    + apply in_map_iff in I as (j & [= ->] & I). now apply S.
    + exfalso. clear - F I. induction F as [|g l' l ll H F IH]; [elim I|]. cbn [concat] in I. apply in_app_iff in I as [I|I]; [|auto].
      destruct H as [(j & u & _ & _ & A & ->)|[_ ->]]; [|elim I]. destruct I as [->|[]].
      clear - A. remember (path1 i) as u. revert Hequ. induction A; intros E; [discriminate|auto].
  - intros [P H]. left. apply in_map. now apply S.
Qed.
Lemma inferred_path ps l t : In t (inferred ps l) ->
  (exists i, t = path1 i) \/ (exists q lead i a j b r, t = TPath q lead (gcons i a (gcons j b r))).
Proof.
  destruct (inferred_spec ps l) as (is & ll & -> & _ & S & F). rewrite in_app_iff. intros [I|I].
  - apply in_map_iff in I as (j & <- & I). left. now exists j.
  - right. clear - F I. induction F as [|g l' l ll H F IH]; [elim I|]. cbn [concat] in I. apply in_app_iff in I as [I|I]; [|auto].
    destruct H as [(j & u & _ & _ & A & ->)|[_ ->]]; [|elim I]. destruct I as [->|[]].
    clear - A. induction A; [now repeat eexists|auto].
Qed.

Lemma not_converted_unimplemented c facts i tr : c_bound (bc_attrs c) = None -> unbounded c (path1 i) ->
  ~ facts tr (path1 i) -> ~ In i (map txt plain_types) ->
  (sql tr -> forall t a, In (t, a) (bc_fields c) -> converted a -> ~ uses i t) ->
  ~ implements (under (build_generics c) facts) tr (path1 i).
Proof.
  intros B W F P N H. apply implements_param in H as [[H|H]|[_ H]]; [easy| |easy].
  apply bound_in_build in H as [(b & I)|[S I]]; [now elim (W b)| |exact B].
  apply inferred_param in I as (_ & t & a & I & C & U). now elim (N S t a I C).
Qed.

Lemma vec_unimplemented c facts t tr : c_bound (bc_attrs c) = None -> unbounded c (app1 "Vec" t) -> unbounded c t ->
  ~ facts tr (app1 "Vec" t) -> ~ facts Static t -> sql tr ->
  (forall u, t <> TGroup u /\ t <> TParen u) ->
  ~ implements (under (build_generics c) facts) tr (app1 "Vec" t).
Proof.
  intros B W W' F F' S G H.
  assert (ST : ~ implements (under (build_generics c) facts) Static t).
  { intros K. inversion K; subst; try (match goal with S : sql Static |- _ => destruct S; discriminate end).
    - match goal with U : under _ _ _ _ |- _ => destruct U as [U|(n & b & [] & _)]; easy end.
    - now destruct (G t0) as [X _].
    - now destruct (G t0) as [_ X]. }
  inversion H; subst; try easy.
  - match goal with U : under _ _ _ _ |- _ => destruct U as [U|U]; [easy|] end.
    apply bound_in_build in H0 as [(b & I)|[_ I]]; [now elim (W b)| |exact B].
    apply inferred_path in I as [(i & E)|(q & lead & i & a & j & b & r & E)]; discriminate.
  - match goal with I : In ?n ["Option"; "Box"; "VecTuple"]%string |- _ => cbn [In] in I; destruct I as [<-|[<-|[<-|[]]]]; discriminate end.
Qed.

Lemma phantom_unimplemented c facts t tr : c_bound (bc_attrs c) = None -> unbounded c (app1 "PhantomData" t) ->
  ~ facts tr (app1 "PhantomData" t) ->
  ~ implements (under (build_generics c) facts) tr (app1 "PhantomData" t).
Proof.
  intros B W F H. inversion H; subst; try easy.
  - match goal with U : under _ _ _ _ |- _ => destruct U as [U|U]; [easy|] end.
    apply bound_in_build in H0 as [(b & I)|[_ I]]; [now elim (W b)| |exact B].
    apply inferred_path in I as [(i & E)|(q & lead & i & a & j & b & r & E)]; discriminate.
  - match goal with I : In ?n ["Option"; "Box"; "VecTuple"]%string |- _ => cbn [In] in I; destruct I as [<-|[<-|[<-|[]]]]; discriminate end.
Qed.

(* ---------------- [Self] ---------------- *)
Section Self_.
  Variables (r : segs) (R : tree).
  Hypothesis receiver_means : forall s, m_type s (TPath onone false r) = R.

  Lemma self_means s :
    (forall t, m_type s (rep_type r t) = m_type R t) /\
    (forall l, m_types s (rep_types r l) = m_types R l) /\
    (forall o, m_opt s (rep_return r o) = m_opt R o) /\
    (forall l, m_segments s (rep_segments r l) = m_segments R l /\ m_segments s (rep_tail r l) = m_tail R l) /\
    (forall a, m_args s (rep_args r a) = m_args R a) /\
    (forall l, m_gargs s (rep_gargs r l) = m_gargs R l) /\
    (forall b, m_bounds s (rep_bounds r b) = m_bounds R b) /\
    (forall e, m_expr s (rep_expr r e) = m_expr R e) /\
    (forall l, m_exprs s (rep_exprs r l) = m_exprs R l).
  Proof.
    assert (SH : forall q lead l, match self_shape q lead l with
      | IsSelf => q = onone /\ lead = false /\ exists a, l = gcons self_ident a gnil
      | InSelf rest => q = onone /\ lead = false /\ exists a j b m, rest = gcons j b m /\ l = gcons self_ident a rest
      | NotSelf => forall i a m, q = onone -> lead = false -> l = gcons i a m -> text_eqb i self_ident = false
      end).
    { intros [|t] [|] [|i a m]; cbn [self_shape]; try (intros; congruence).
      destruct (text_eqb i self_ident) eqn:E.
      - apply text_eqb_eq in E as ->. destruct m as [|j b m]; repeat split; repeat eexists.
      - intros i' a' m' _ _ [= <- _ _]. exact E. }
    apply syn_ind; intros; cbn [rep_type rep_types rep_return rep_segments rep_tail rep_args rep_gargs rep_bounds rep_expr rep_exprs];
      try (cbn [m_type m_types m_opt m_segments m_tail m_args m_gargs m_bounds m_expr m_exprs]; congruence).
    - specialize (SH qself leading_colon segments). destruct (self_shape qself leading_colon segments) as [|rest|].
      + destruct SH as (-> & -> & a & ->). rewrite receiver_means. cbn [m_type]. now rewrite text_eqb_refl.
      + destruct SH as (-> & -> & a & j & b & m & -> & ->). cbn [m_type]. fold (m_type s).
        change (item (m_type s (TPath onone false r)) (m_segments s (rep_tail r (gcons self_ident a (gcons j b m)))) =
          if text_eqb self_ident (txt "Self") then item R (m_tail R (gcons self_ident a (gcons j b m)))
          else Node "path" [] (m_segments R (gcons self_ident a (gcons j b m)))).
        rewrite receiver_means, (proj2 H0). reflexivity.
      + destruct H0 as [H0 _]. destruct qself as [|t]; [|cbn [m_opt rep_return] in H; injection H as H].
        * destruct leading_colon; [|destruct segments as [|i a m]; [reflexivity|]].
          -- cbn [rep_return m_type]. now rewrite H0.
          -- specialize (SH i a m eq_refl eq_refl eq_refl). unfold self_ident in SH. cbn [rep_return rep_segments].
             transitivity (Node "path" [] (m_segments s (rep_segments r (gcons i a m)))).
             ++ cbn [rep_segments]. destruct m as [|j b m]; cbn [rep_segments]; cbn [m_type]; now rewrite SH.
             ++ rewrite H0. destruct m as [|j b m]; cbn [m_type]; now rewrite SH.
        * cbn [rep_return]. destruct leading_colon; cbn [m_type]; now rewrite H, H0.
    - split; reflexivity.
    - destruct H0 as [H0 _]. split; [|exact H0]. cbn [m_segments]. now rewrite H, H0.
    - cbn [m_bounds]. destruct H as [H _]. now rewrite H, H0.
    - specialize (SH qself leading_colon segments). destruct (self_shape qself leading_colon segments) as [|rest|].
      + destruct SH as (-> & -> & a & ->). transitivity (m_type s (TPath onone false r)); [reflexivity|].
        rewrite receiver_means. cbn [m_expr]. now rewrite text_eqb_refl.
      + destruct SH as (-> & -> & a & j & b & m & -> & ->).
        change (item (m_type s (TPath onone false r)) (m_segments s (rep_tail r (gcons self_ident a (gcons j b m)))) =
          if text_eqb self_ident (txt "Self") then item R (m_tail R (gcons self_ident a (gcons j b m)))
          else Node "path" [] (m_segments R (gcons self_ident a (gcons j b m)))).
        rewrite receiver_means, (proj2 H0). reflexivity.
      + destruct H0 as [H0 _]. destruct qself as [|t]; [|cbn [m_opt rep_return] in H; injection H as H].
        * destruct leading_colon; [|destruct segments as [|i a m]; [reflexivity|]].
          -- cbn [rep_return m_expr]. now rewrite H0.
          -- specialize (SH i a m eq_refl eq_refl eq_refl). unfold self_ident in SH. cbn [rep_return rep_segments].
             transitivity (Node "path" [] (m_segments s (rep_segments r (gcons i a m)))).
             ++ cbn [rep_segments]. destruct m as [|j b m]; cbn [rep_segments]; cbn [m_expr]; now rewrite SH.
             ++ rewrite H0. destruct m as [|j b m]; cbn [m_expr]; now rewrite SH.
        * cbn [rep_return]. destruct leading_colon; cbn [m_expr]; now rewrite H, H0.
  Qed.
End Self_.

Lemma receiver_stable ident g s : ident <> txt "Self" -> ~ In (txt "Self") (type_params g) ->
  m_type s (TPath onone false (self_ty ident g)) = receiver ident g.
Proof.
  intros NI NP. unfold self_ty, receiver. apply text_eqb_neq in NI. cbn [m_type]. rewrite NI. f_equal. cbn [m_segments]. f_equal. f_equal.
  assert (A : forall l, ~ In (txt "Self") (flat_map (fun p => match p with GType i _ _ => [i] | _ => [] end) l) ->
    m_gargs s (own_args l) = map receiver_arg l).
  { induction l as [|[i b d|i|i k] l IH]; intros N; cbn [own_args m_gargs map receiver_arg]; [reflexivity|..].
    - cbn [flat_map app] in N. rewrite IH by (intros I; apply N; now right). f_equal. f_equal. f_equal.
      unfold path1. cbn [m_type m_segments m_args]. assert (E : text_eqb i (txt "Self") = false) by (apply text_eqb_neq; intros ->; apply N; now left).
      now rewrite E.
    - rewrite IH; [reflexivity|exact N].
    - rewrite IH; [reflexivity|exact N]. }
  unfold type_params in NP. destruct (g_params g) as [|p l]; [reflexivity|]. cbn [m_args]. now rewrite A.
Qed.

Lemma self_replaced ident g tys g' tys' s : ident <> txt "Self" -> ~ In (txt "Self") (type_params g) ->
  replace_receiver ident g tys = (g', tys') ->
  map (m_type s) tys' = map (m_type (receiver ident g)) tys /\
  map (m_pred s) (g_where g') = map (m_pred (receiver ident g)) (g_where g) /\
  map (m_param s) (g_params g') = map (m_param (receiver ident g)) (g_params g).
Proof.
  intros NI NP [= <- <-].
  destruct (self_means (self_ty ident g) (receiver ident g) (fun s => receiver_stable ident g s NI NP) s)
    as (MT & _ & _ & _ & _ & _ & MB & _ & _).
  rewrite map_map. split; [|split].
  - apply map_ext. exact MT.
  - cbn [rep_generics g_where]. rewrite map_map. apply map_ext. intros [t b|k]; cbn [m_pred]; [now rewrite MT, MB|reflexivity].
  - cbn [rep_generics g_params]. rewrite map_map. apply map_ext. intros [i b d|i|i k]; cbn [m_param]; [now rewrite MB|reflexivity..].
Qed.
