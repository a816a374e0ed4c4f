(** Proofs about the attribute parsing of the derive macro. *)
From Coq Require Import String.
From Verif Require Import Base Types Text Rename Attrs AttrSpec.
Local Open Scope list_scope.

Lemma is_ident_spec p s : is_ident p s = true <-> p = [txt s].
Proof.
  unfold is_ident. destruct p as [|w [|w' p]]; split; intros H; try discriminate H.
  - unfold text_eqb in H. apply list_eqb_N_spec in H. now subst.
  - injection H as ->. unfold text_eqb. now apply list_eqb_N_spec.
Qed.
Lemma is_ident_false p s : is_ident p s = false -> p <> [txt s].
Proof. intros H E. apply is_ident_spec in E. congruence. Qed.

Lemma nodup_snoc {A} (l : list A) x : NoDup l -> ~ In x l -> NoDup (l ++ [x]).
Proof.
  intros N I. rewrite <- (rev_involutive (l ++ [x])). apply NoDup_rev. rewrite rev_app_distr. cbn. constructor; [now rewrite <- in_rev|].
  now apply NoDup_rev.
Qed.

Lemma NoDup_app_l {A} (l m : list A) : NoDup (l ++ m) -> NoDup l.
Proof.
  induction l as [|x l IH]; intros N; [constructor|]. cbn in N. apply NoDup_cons_iff in N as [I N]. constructor; [|now apply IH].
  intros J. apply I, in_or_app. now left.
Qed.

(** A loop over settings, whatever the settings are. *)
Section Loop.
  Context {S X : Type} (step : S -> meta -> S * list aerr) (reads : meta -> list X -> Prop) (sort : X -> nat)
          (holds : S -> list X -> Prop) (apply1 : S -> X -> S * list aerr).
  Fixpoint apply_all (s : S) (l : list X) : S * list aerr :=
    match l with [] => (s, []) | x :: l => let '(s1, e1) := apply1 s x in let '(s2, e2) := apply_all s1 l in (s2, e1 ++ e2) end.

  Hypothesis apply_new : forall s l x, holds s l -> ~ In (sort x) (map sort l) ->
    exists s', apply1 s x = (s', []) /\ holds s' (l ++ [x]).
  Hypothesis apply_old : forall s l x, holds s l -> In (sort x) (map sort l) -> snd (apply1 s x) <> [].
  Hypothesis step_reads : forall s m l, reads m l -> step s m = apply_all s l.
  Hypothesis step_errs : forall s m, snd (step s m) = [] -> exists l, reads m l.
  Hypothesis reads_fun : forall m l l', reads m l -> reads m l' -> l = l'.

  Lemma apply_all_ok l : forall s l0, holds s l0 -> NoDup (map sort (l0 ++ l)) ->
    exists s', apply_all s l = (s', []) /\ holds s' (l0 ++ l).
  Proof.
    induction l as [|x l IH]; intros s l0 H N; cbn [apply_all].
    - exists s. rewrite app_nil_r. auto.
    - assert (NX : ~ In (sort x) (map sort l0)).
      { rewrite map_app in N. cbn [map] in N. apply NoDup_remove_2 in N. intros I. apply N, in_or_app. now left. }
      destruct (apply_new s l0 x H NX) as (s1 & -> & H1).
      assert (E : l0 ++ x :: l = (l0 ++ [x]) ++ l) by (rewrite <- app_assoc; reflexivity).
      rewrite E in N |- *. destruct (IH s1 (l0 ++ [x]) H1 N) as (s2 & -> & H2). exists s2. auto.
  Qed.
  Lemma apply_all_inv l : forall s l0 s', holds s l0 -> NoDup (map sort l0) -> apply_all s l = (s', []) ->
    NoDup (map sort (l0 ++ l)) /\ holds s' (l0 ++ l).
  Proof.
    induction l as [|x l IH]; intros s l0 s' H N E; cbn [apply_all] in E.
    - injection E as <-. rewrite app_nil_r. auto.
    - destruct (apply1 s x) as [s1 e1] eqn:E1. destruct (apply_all s1 l) as [s2 e2] eqn:E2. injection E as <- E.
      apply app_eq_nil in E as [-> ->].
      destruct (in_dec Nat.eq_dec (sort x) (map sort l0)) as [I|I].
      { elim (apply_old s l0 x H I). now rewrite E1. }
      destruct (apply_new s l0 x H I) as (s1' & E1' & H1). rewrite E1 in E1'. injection E1' as <-.
      assert (E : l0 ++ x :: l = (l0 ++ [x]) ++ l) by (rewrite <- app_assoc; reflexivity). rewrite E.
      apply (IH s1); auto. rewrite map_app. cbn [map]. now apply nodup_snoc.
  Qed.

  Lemma over_items_inv l : forall s l0 s', holds s l0 -> NoDup (map sort l0) -> over_items step s l = (s', []) ->
    exists ll, Forall2 reads l ll /\ NoDup (map sort (l0 ++ concat ll)) /\ holds s' (l0 ++ concat ll).
  Proof.
    induction l as [|m l IH]; intros s l0 s' H N E; cbn [over_items] in E.
    - injection E as <-. exists []. cbn. rewrite app_nil_r. auto.
    - destruct (step s m) as [s1 e1] eqn:E1. destruct (over_items step s1 l) as [s2 e2] eqn:E2. injection E as <- E.
      apply app_eq_nil in E as [-> ->]. destruct (step_errs s m) as [x R]; [now rewrite E1|].
      rewrite (step_reads s m x R) in E1. destruct (apply_all_inv x s l0 s1 H N E1) as [N1 H1].
      destruct (IH s1 (l0 ++ x) s2 H1 N1 E2) as (ll & F & N2 & H2). exists (x :: ll). cbn [concat]. rewrite app_assoc. auto.
  Qed.
  Lemma over_items_ok l ll : Forall2 reads l ll -> forall s l0, holds s l0 -> NoDup (map sort (l0 ++ concat ll)) ->
    exists s', over_items step s l = (s', []) /\ holds s' (l0 ++ concat ll).
  Proof.
    induction 1 as [|m x l ll R F IH]; intros s l0 H N; cbn [over_items concat].
    - exists s. cbn in N. rewrite app_nil_r in *. auto.
    - cbn [concat] in N. rewrite app_assoc in N. rewrite (step_reads s m x R).
      destruct (apply_all_ok x s l0 H) as (s1 & -> & H1).
      { rewrite map_app in N. apply NoDup_app_l in N. exact N. }
      destruct (IH s1 (l0 ++ x) H1 N) as (s2 & -> & H2). exists s2. rewrite app_assoc. auto.
  Qed.
  Lemma over_attrs_inv l : forall s l0 s', holds s l0 -> NoDup (map sort l0) -> over_attrs step s l = (s', []) ->
    well_formed l /\ exists ll, Forall2 reads (items l) ll /\ NoDup (map sort (l0 ++ concat ll)) /\ holds s' (l0 ++ concat ll).
  Proof.
    induction l as [|a l IH]; intros s l0 s' H N E; cbn [over_attrs] in E.
    - injection E as <-. split; [intros []|]. exists []. cbn. rewrite app_nil_r. auto.
    - destruct a as [| |i].
      + destruct (IH s l0 s' H N E) as (W & ll & P). split; [|exists ll; exact P]. intros [D|D]; [discriminate D|auto].
      + destruct (over_attrs step s l) as [s1 e1]. discriminate E.
      + destruct (over_items step s i) as [s1 e1] eqn:E1. destruct (over_attrs step s1 l) as [s2 e2] eqn:E2. injection E as <- E.
        apply app_eq_nil in E as [-> ->]. destruct (over_items_inv i s l0 s1 H N E1) as (ll1 & F1 & N1 & H1).
        destruct (IH s1 _ s2 H1 N1 E2) as (W & ll2 & F2 & N2 & H2). split; [intros [D|D]; [discriminate D|auto]|].
        exists (ll1 ++ ll2). rewrite concat_app, app_assoc. split; [|auto]. unfold items. cbn [flat_map]. now apply Forall2_app.
  Qed.
  Lemma over_attrs_ok l : forall ll, well_formed l -> Forall2 reads (items l) ll -> forall s l0, holds s l0 -> NoDup (map sort (l0 ++ concat ll)) ->
    exists s', over_attrs step s l = (s', []) /\ holds s' (l0 ++ concat ll).
  Proof.
    induction l as [|a l IH]; intros ll W F s l0 H N; cbn [over_attrs].
    - inversion F; subst. exists s. cbn. rewrite app_nil_r. auto.
    - assert (W' : well_formed l) by (intros D; apply W; now right). destruct a as [| |i].
      + exact (IH ll W' F s l0 H N).
      + elim W. now left.
      + unfold items in F. cbn [flat_map] in F. apply Forall2_app_inv_l in F as (ll1 & ll2 & F1 & F2 & ->).
        rewrite concat_app, app_assoc in *. destruct (over_items_ok i ll1 F1 s l0 H) as (s1 & -> & H1).
        { rewrite map_app in N. now apply NoDup_app_l in N. }
        destruct (IH ll2 W' F2 s1 _ H1 N) as (s2 & -> & H2). exists s2. auto.
  Qed.
  Lemma reads_all_fun l ll ll' : Forall2 reads l ll -> Forall2 reads l ll' -> ll = ll'.
  Proof.
    intros F. revert ll'. induction F as [|m x l ll R F IH]; intros ll' F'; inversion F'; subst; [reflexivity|].
    f_equal; [now apply (reads_fun m)|now apply IH].
  Qed.
End Loop.

Section Fields.
  Context {where_ : Type} (parse_path : text -> option path) (parse_where : text -> option where_).
  Notation slots := (@fslots where_).
  Notation setting := (@fsetting where_).

  Definition fapply (s : slots) (x : setting) : slots * list aerr :=
    match x with
    | FRename t => set_rename t s | FNested => set_nested s | FFlatten => set_flatten s | FSkipSer => set_skip_ser s | FSkipDe => set_skip_de s
    | FDefault d => set_default d s | FSer p => set_ser p s | FDe p => set_de p s | FBound w => set_bound w s
    end.
  Record fholds (s : slots) (l : list setting) : Prop := {
    fo_rename : forall t, s_rename s = Some t <-> In (FRename t) l;
    fo_nested : forall u, s_nested s = Some u <-> In FNested l;
    fo_flatten : forall u, s_flatten s = Some u <-> In FFlatten l;
    fo_skip_ser : forall u, s_skip_ser s = Some u <-> In FSkipSer l;
    fo_skip_de : forall u, s_skip_de s = Some u <-> In FSkipDe l;
    fo_default : forall d, s_default s = Some d <-> In (FDefault d) l;
    fo_ser : forall p, s_ser s = Some p <-> In (FSer p) l;
    fo_de : forall p, s_de s = Some p <-> In (FDe p) l;
    fo_bound : forall w, s_bound s = Some w <-> In (FBound w) l }.

  Lemma fholds0 : fholds fslots0 [].
  Proof. split; cbn; intros; split; (discriminate || tauto). Qed.

  Lemma in_sort (l : list setting) x : In x l -> In (fsort x) (map fsort l).
  Proof. apply in_map. Qed.

  Lemma fapply_new s l x : fholds s l -> ~ In (fsort x) (map fsort l) -> exists s', fapply s x = (s', []) /\ fholds s' (l ++ [x]).
  Proof.
    intros H N.
    assert (A : forall y, fsort y = fsort x -> ~ In y l) by (intros y E I; apply N; rewrite <- E; now apply in_map).
    assert (B : forall y, In y (l ++ [x]) <-> In y l \/ y = x).
    { intros y. rewrite in_app_iff. cbn. intuition. }
    destruct x; cbn [fapply];
      unfold set_rename, set_nested, set_flatten, set_skip_ser, set_skip_de, set_default, set_ser, set_de, set_bound, set.
    all: match goal with |- context[match ?o with Some _ => _ | None => _ end] => destruct o eqn:O end;
      [exfalso; match type of O with
        | s_rename _ = _ => apply (fo_rename _ _ H) in O | s_nested _ = _ => apply (fo_nested _ _ H) in O | s_flatten _ = _ => apply (fo_flatten _ _ H) in O
        | s_skip_ser _ = _ => apply (fo_skip_ser _ _ H) in O | s_skip_de _ = _ => apply (fo_skip_de _ _ H) in O | s_default _ = _ => apply (fo_default _ _ H) in O
        | s_ser _ = _ => apply (fo_ser _ _ H) in O | s_de _ = _ => apply (fo_de _ _ H) in O | s_bound _ = _ => apply (fo_bound _ _ H) in O end;
        eapply A; [|exact O]; reflexivity|].
    all: eexists; (split; [reflexivity|]); split; cbn [s_rename s_nested s_flatten s_skip_ser s_skip_de s_default s_ser s_de s_bound]; intros u; rewrite B.
    all: try (match goal with
        | |- context[s_rename] => rewrite (fo_rename _ _ H) | |- context[s_nested] => rewrite (fo_nested _ _ H) | |- context[s_flatten] => rewrite (fo_flatten _ _ H)
        | |- context[s_skip_ser] => rewrite (fo_skip_ser _ _ H) | |- context[s_skip_de] => rewrite (fo_skip_de _ _ H) | |- context[s_default] => rewrite (fo_default _ _ H)
        | |- context[s_ser] => rewrite (fo_ser _ _ H) | |- context[s_de] => rewrite (fo_de _ _ H) | |- context[s_bound] => rewrite (fo_bound _ _ H) end;
        split; [auto|intros [K|K]; [exact K|discriminate K]]).
    all: try (split; [intros K; injection K as <-; auto|intros [K|K]; [exfalso; eapply A; [|exact K]; reflexivity|now injection K as <-]]).
    all: destruct u; split; [auto|intros _; reflexivity].
  Qed.
  Lemma fapply_old s l x : fholds s l -> In (fsort x) (map fsort l) -> snd (fapply s x) <> [].
  Proof.
    intros H N. apply in_map_iff in N as (y & E & I).
    destruct x, y; try discriminate E; cbn [fapply];
      unfold set_rename, set_nested, set_flatten, set_skip_ser, set_skip_de, set_default, set_ser, set_de, set_bound, set.
    - apply (fo_rename _ _ H) in I. rewrite I. discriminate.
    - apply (fo_nested _ _ H tt) in I. rewrite I. discriminate.
    - apply (fo_flatten _ _ H tt) in I. rewrite I. discriminate.
    - apply (fo_skip_ser _ _ H tt) in I. rewrite I. discriminate.
    - apply (fo_skip_de _ _ H tt) in I. rewrite I. discriminate.
    - apply (fo_default _ _ H) in I. rewrite I. discriminate.
    - apply (fo_ser _ _ H) in I. rewrite I. discriminate.
    - apply (fo_de _ _ H) in I. rewrite I. discriminate.
    - apply (fo_bound _ _ H) in I. rewrite I. discriminate.
  Qed.

  Notation freads := (freads parse_path parse_where).
  Notation item := (field_item parse_path parse_where).
  Ltac idents := repeat match goal with
    | |- context[is_ident [txt ?a] ?b] =>
        let v := eval vm_compute in (is_ident [txt a] b) in change (is_ident [txt a] b) with v; cbv iota
    end.
  Lemma field_item_reads s m l : freads m l -> item s m = apply_all fapply s l.
  Proof.
    intros [H|[(n & I & ->) ->]].
    - inversion H; subst; cbn [field_item apply_all fapply]; idents; unfold get_value;
        try match goal with E : _ = Some _ |- _ => rewrite E end; cbn [with_value];
        repeat match goal with
          | |- context[set_ser ?a ?b] => destruct (set_ser a b) | |- context[set_de ?a ?b] => destruct (set_de a b)
          | |- context[set_rename ?a ?b] => destruct (set_rename a b) | |- context[set_default ?a ?b] => destruct (set_default a b)
          | |- context[set_bound ?a ?b] => destruct (set_bound a b) | |- context[set_skip_ser ?b] => destruct (set_skip_ser b)
          | |- context[set_skip_de ?b] => destruct (set_skip_de b) | |- context[set_nested ?b] => destruct (set_nested b)
          | |- context[set_flatten ?b] => destruct (set_flatten b) end;
        rewrite ?app_nil_r; reflexivity.
    - cbn [apply_all]. unfold fvalued in I. repeat destruct I as [<-|I]; try contradiction I; cbn [field_item]; idents; reflexivity.
  Qed.
  Lemma field_item_errs s m : snd (item s m) = [] -> exists l, freads m l.
  Proof.
    assert (V : forall n, In n fvalued -> exists l, freads (MNameValue [txt n] VExpr) l).
    { intros n I. exists []. right. split; [exists n; auto|reflexivity]. }
    destruct m as [p|p v|p]; cbn [field_item]; [| |discriminate].
    - repeat match goal with |- context[is_ident p ?b] => destruct (is_ident p b) eqn:? end; intros E; try discriminate E;
        match goal with K : is_ident p ?b = true |- _ => apply is_ident_spec in K; subst p end; eexists; left; constructor.
    - repeat match goal with |- context[is_ident p ?b] => destruct (is_ident p b) eqn:? end; intros E; try discriminate E;
        match goal with K : is_ident p ?b = true |- _ => apply is_ident_spec in K; subst p end;
        (destruct v as [t| |]; cbn [get_value] in E;
          [|discriminate E|apply V; unfold fvalued; cbn; tauto]).
      all: try (eexists; left; constructor; fail).
      all: try (destruct (parse_path t) as [q|] eqn:Q; cbn [with_value] in E; [|discriminate E]; eexists; left; econstructor; exact Q).
      destruct (parse_where t) as [q|] eqn:Q; cbn [with_value] in E; [|discriminate E]; eexists; left; econstructor; exact Q.
  Qed.
  Lemma freads_fun m l l' : freads m l -> freads m l' -> l = l'.
  Proof.
    intros [H|[(n & I & E) ->]] [H'|[(n' & I' & E') ->]].
    - inversion H; subst; inversion H'; subst; try reflexivity; congruence.
    - subst m. inversion H.
    - subst m. inversion H'.
    - reflexivity.
  Qed.

  Lemma field_of_slots ident cd s l e : fholds s l -> over_attrs item fslots0 e = (s, []) ->
    field_has (unraw ident) cd l (fst (field_from_ast parse_path parse_where ident e cd)).
  Proof.
    intros H E. unfold field_from_ast. rewrite E. cbn [fst].
    assert (G : forall o : option unit, given o = true <-> o = Some tt) by (intros [[]|]; cbn; split; congruence).
    split; cbn [f_name f_renamed f_skip_ser f_skip_de f_default f_ser f_de f_bound f_nested f_flatten].
    - intros t I. apply (fo_rename _ _ H) in I. now rewrite I.
    - intros N. destruct (s_rename s) as [t|] eqn:R; [|reflexivity]. apply (fo_rename _ _ H) in R. now elim (N t).
    - destruct (s_rename s) as [t|] eqn:R; cbn; split; try congruence.
      + intros _. exists t. now apply (fo_rename _ _ H).
      + intros [t I]. apply (fo_rename _ _ H) in I. congruence.
    - rewrite G. apply (fo_nested _ _ H).
    - rewrite G. apply (fo_flatten _ _ H).
    - rewrite G. apply (fo_skip_ser _ _ H).
    - rewrite G. apply (fo_skip_de _ _ H).
    - intros d I. apply (fo_default _ _ H) in I. rewrite I. destruct cd; [destruct (given (s_skip_de s))|..]; reflexivity.
    - intros N. destruct (s_default s) as [d|] eqn:R; [apply (fo_default _ _ H) in R; now elim (N d)|].
      destruct cd; [destruct (given (s_skip_de s))|..]; reflexivity.
    - apply (fo_ser _ _ H).
    - apply (fo_de _ _ H).
    - apply (fo_bound _ _ H).
  Qed.

  (** A field's attributes are accepted iff all of them are known and no setting is given twice... *)
  Lemma field_accepted_iff ident attrs cd :
    snd (field_from_ast parse_path parse_where ident attrs cd) = [] <->
    well_formed attrs /\ exists ll, Forall2 freads (items attrs) ll /\ NoDup (map fsort (concat ll)).
  Proof.
    assert (E : snd (field_from_ast parse_path parse_where ident attrs cd) = snd (over_attrs item fslots0 attrs)).
    { unfold field_from_ast. destruct (over_attrs item fslots0 attrs). reflexivity. }
    rewrite E. clear E. split.
    - intros E. destruct (over_attrs item fslots0 attrs) as [s e] eqn:O. cbn in E. subst e.
      destruct (over_attrs_inv item freads fsort fholds fapply fapply_new fapply_old field_item_reads field_item_errs attrs fslots0 [] s fholds0 ltac:(constructor) O) as (W & ll & F & N & _).
      split; [exact W|]. exists ll. auto.
    - intros (W & ll & F & N).
      destruct (over_attrs_ok item freads fsort fholds fapply fapply_new field_item_reads attrs ll W F fslots0 [] fholds0 N) as (s & -> & _). reflexivity.
  Qed.
  (** ... and then the field has exactly these settings. *)
  Lemma field_settings ident attrs cd ll : snd (field_from_ast parse_path parse_where ident attrs cd) = [] ->
    Forall2 freads (items attrs) ll -> field_has (unraw ident) cd (concat ll) (fst (field_from_ast parse_path parse_where ident attrs cd)).
  Proof.
    intros E F. apply field_accepted_iff in E as (W & ll' & F' & N).
    rewrite (reads_all_fun freads freads_fun _ _ _ F F').
    destruct (over_attrs_ok item freads fsort fholds fapply fapply_new field_item_reads attrs ll' W F' fslots0 [] fholds0 N) as (s & O & H).
    exact (field_of_slots ident cd s (concat ll') attrs H O).
  Qed.
End Fields.

Section Containers.
  Context {where_ type_ : Type} (parse_path : text -> option path)
          (parse_where : text -> option where_) (parse_type : text -> option type_).
  Notation slots := (@cslots where_ type_).
  Notation setting := (@csetting where_ type_).

  Definition capply (s : slots) (x : setting) : slots * list aerr :=
    match x with
    | CRename t => setk_rename t s | CDeny => setk_deny s | CDefault d => setk_default d s | CRenameAll r => setk_rename_all r s
    | CBound w => setk_bound w s | CFrom t => setk_from t s | CTryFrom t => setk_try_from t s | CInto t => setk_into t s
    end.
  Record cholds (s : slots) (l : list setting) : Prop := {
    co_rename : forall t, k_rename s = Some t <-> In (CRename t) l;
    co_deny : forall u, k_deny s = Some u <-> In CDeny l;
    co_default : forall d, k_default s = Some d <-> In (CDefault d) l;
    co_rename_all : forall r, k_rename_all s = Some r <-> In (CRenameAll r) l;
    co_bound : forall w, k_bound s = Some w <-> In (CBound w) l;
    co_from : forall t, k_from s = Some t <-> In (CFrom t) l;
    co_try_from : forall t, k_try_from s = Some t <-> In (CTryFrom t) l;
    co_into : forall t, k_into s = Some t <-> In (CInto t) l }.
  Lemma cholds0 : cholds cslots0 [].
  Proof. split; cbn; intros; split; (discriminate || tauto). Qed.

  Lemma capply_new s l x : cholds s l -> ~ In (csort x) (map csort l) -> exists s', capply s x = (s', []) /\ cholds s' (l ++ [x]).
  Proof.
    intros H N.
    assert (A : forall y, csort y = csort x -> ~ In y l) by (intros y E I; apply N; rewrite <- E; now apply in_map).
    assert (B : forall y, In y (l ++ [x]) <-> In y l \/ y = x).
    { intros y. rewrite in_app_iff. cbn. intuition. }
    destruct x; cbn [capply];
      unfold setk_rename, setk_deny, setk_default, setk_rename_all, setk_bound, setk_from, setk_try_from, setk_into, set.
    all: match goal with |- context[match ?o with Some _ => _ | None => _ end] => destruct o eqn:O end;
      [exfalso; match type of O with
        | k_rename _ = _ => apply (co_rename _ _ H) in O | k_deny _ = _ => apply (co_deny _ _ H) in O | k_default _ = _ => apply (co_default _ _ H) in O
        | k_rename_all _ = _ => apply (co_rename_all _ _ H) in O | k_bound _ = _ => apply (co_bound _ _ H) in O
        | k_from _ = _ => apply (co_from _ _ H) in O | k_try_from _ = _ => apply (co_try_from _ _ H) in O | k_into _ = _ => apply (co_into _ _ H) in O end;
        eapply A; [|exact O]; reflexivity|].
    all: eexists; (split; [reflexivity|]); split; cbn [k_rename k_deny k_default k_rename_all k_bound k_from k_try_from k_into]; intros u; rewrite B.
    all: try (match goal with
        | |- context[k_rename _] => rewrite (co_rename _ _ H) | |- context[k_deny _] => rewrite (co_deny _ _ H) | |- context[k_default _] => rewrite (co_default _ _ H)
        | |- context[k_rename_all _] => rewrite (co_rename_all _ _ H) | |- context[k_bound _] => rewrite (co_bound _ _ H)
        | |- context[k_from _] => rewrite (co_from _ _ H) | |- context[k_try_from _] => rewrite (co_try_from _ _ H) | |- context[k_into _] => rewrite (co_into _ _ H) end;
        split; [auto|intros [K|K]; [exact K|discriminate K]]).
    all: try (split; [intros K; injection K as <-; auto|intros [K|K]; [exfalso; eapply A; [|exact K]; reflexivity|now injection K as <-]]).
    all: destruct u; split; [auto|intros _; reflexivity].
  Qed.
  Lemma capply_old s l x : cholds s l -> In (csort x) (map csort l) -> snd (capply s x) <> [].
  Proof.
    intros H N. apply in_map_iff in N as (y & E & I).
    destruct x, y; try discriminate E; cbn [capply];
      unfold setk_rename, setk_deny, setk_default, setk_rename_all, setk_bound, setk_from, setk_try_from, setk_into, set.
    - apply (co_rename _ _ H) in I. rewrite I. discriminate.
    - apply (co_deny _ _ H tt) in I. rewrite I. discriminate.
    - apply (co_default _ _ H) in I. rewrite I. discriminate.
    - apply (co_rename_all _ _ H) in I. rewrite I. discriminate.
    - apply (co_bound _ _ H) in I. rewrite I. discriminate.
    - apply (co_from _ _ H) in I. rewrite I. discriminate.
    - apply (co_try_from _ _ H) in I. rewrite I. discriminate.
    - apply (co_into _ _ H) in I. rewrite I. discriminate.
  Qed.

  Notation creads := (creads parse_path parse_where parse_type).
  Notation item d := (container_item parse_path parse_where parse_type d).
  Ltac idents := repeat match goal with
    | |- context[is_ident [txt ?a] ?b] =>
        let v := eval vm_compute in (is_ident [txt a] b) in change (is_ident [txt a] b) with v; cbv iota
    end.
  Lemma container_item_reads d : is_named d = true -> forall s m l, creads m l -> item d s m = apply_all capply s l.
  Proof.
    intros ND s m l [H|[(n & I & ->) ->]].
    - inversion H; subst; cbn [container_item apply_all capply]; idents; unfold get_value; rewrite ?ND;
        try match goal with E : _ = Some _ |- _ => rewrite E end; cbn [with_value];
        try match goal with E : _ = Some _ |- _ => rewrite E end;
        repeat match goal with
          | |- context[setk_rename ?a ?b] => destruct (setk_rename a b) | |- context[setk_default ?a ?b] => destruct (setk_default a b)
          | |- context[setk_bound ?a ?b] => destruct (setk_bound a b) | |- context[setk_deny ?b] => destruct (setk_deny b)
          | |- context[setk_rename_all ?a ?b] => destruct (setk_rename_all a b) | |- context[setk_from ?a ?b] => destruct (setk_from a b)
          | |- context[setk_try_from ?a ?b] => destruct (setk_try_from a b) | |- context[setk_into ?a ?b] => destruct (setk_into a b) end;
        rewrite ?app_nil_r; reflexivity.
    - cbn [apply_all]. unfold cvalued in I. repeat destruct I as [<-|I]; try contradiction I; cbn [container_item]; idents; reflexivity.
  Qed.
  Lemma container_item_errs d s m : snd (item d s m) = [] -> exists l, creads m l.
  Proof.
    assert (V : forall n, In n cvalued -> exists l, creads (MNameValue [txt n] VExpr) l).
    { intros n I. exists []. right. split; [exists n; auto|reflexivity]. }
    destruct m as [p|p v|p]; cbn [container_item]; [| |discriminate].
    - repeat match goal with |- context[is_ident p ?b] => destruct (is_ident p b) eqn:? end; intros E; try discriminate E;
        match goal with K : is_ident p ?b = true |- _ => apply is_ident_spec in K; subst p end; eexists; left; constructor.
    - repeat match goal with |- context[is_ident p ?b] => destruct (is_ident p b) eqn:? end; intros E; try discriminate E;
        match goal with K : is_ident p ?b = true |- _ => apply is_ident_spec in K; subst p end;
        (destruct v as [t| |]; cbn [get_value] in E;
          [|discriminate E|apply V; unfold cvalued; cbn; tauto]).
      all: try (eexists; left; constructor; fail).
      all: try (destruct (parse_path t) as [q|] eqn:Q; cbn [with_value] in E; [|discriminate E]; eexists; left; econstructor; exact Q).
      all: try (destruct (parse_where t) as [q|] eqn:Q; cbn [with_value] in E; [|discriminate E]; eexists; left; econstructor; exact Q).
      all: try (destruct (parse_type t) as [q|] eqn:Q; cbn [with_value] in E; [|discriminate E]; eexists; left; econstructor; exact Q).
      cbn [with_value] in E. destruct (rule_from_str t) as [r|] eqn:Q; [|discriminate E]. eexists; left; econstructor; exact Q.
  Qed.
  Lemma creads_fun m l l' : creads m l -> creads m l' -> l = l'.
  Proof.
    intros [H|[(n & I & E) ->]] [H'|[(n' & I' & E') ->]].
    - inversion H; subst; inversion H'; subst; try reflexivity; congruence.
    - subst m. inversion H.
    - subst m. inversion H'.
    - reflexivity.
  Qed.
  Lemma container_of_slots d s l e : cholds s l -> over_attrs (item d) cslots0 e = (s, []) ->
    container_has l (fst (container_from_ast parse_path parse_where parse_type d e)).
  Proof.
    intros H E. unfold container_from_ast. rewrite E. cbn [fst].
    assert (G : forall o : option unit, given o = true <-> o = Some tt) by (intros [[]|]; cbn; split; congruence).
    split; cbn [c_deny c_default c_rename_all c_bound c_from c_try_from c_into].
    - rewrite G. apply (co_deny _ _ H).
    - intros x I. apply (co_default _ _ H) in I. now rewrite I.
    - intros N. destruct (k_default s) as [t|] eqn:R; [|reflexivity]. apply (co_default _ _ H) in R. now elim (N t).
    - intros x I. apply (co_rename_all _ _ H) in I. now rewrite I.
    - intros N. destruct (k_rename_all s) as [t|] eqn:R; [|reflexivity]. apply (co_rename_all _ _ H) in R. now elim (N t).
    - apply (co_bound _ _ H).
    - apply (co_from _ _ H).
    - apply (co_try_from _ _ H).
    - apply (co_into _ _ H).
  Qed.
  Lemma container_accepted_iff d attrs : is_named d = true ->
    snd (container_from_ast parse_path parse_where parse_type d attrs) = [] <->
    well_formed attrs /\ exists ll, Forall2 creads (items attrs) ll /\ NoDup (map csort (concat ll)).
  Proof.
    intros ND.
    assert (E : snd (container_from_ast parse_path parse_where parse_type d attrs) = snd (over_attrs (item d) cslots0 attrs)).
    { unfold container_from_ast. destruct (over_attrs (item d) cslots0 attrs). reflexivity. }
    rewrite E. clear E. split.
    - intros E. destruct (over_attrs (item d) cslots0 attrs) as [s e] eqn:O. cbn in E. subst e.
      destruct (over_attrs_inv (item d) creads csort cholds capply capply_new capply_old (container_item_reads d ND) (container_item_errs d) attrs cslots0 [] s cholds0 ltac:(constructor) O) as (W & ll & F & N & _).
      split; [exact W|]. exists ll. auto.
    - intros (W & ll & F & N).
      destruct (over_attrs_ok (item d) creads csort cholds capply capply_new (container_item_reads d ND) attrs ll W F cslots0 [] cholds0 N) as (s & -> & _). reflexivity.
  Qed.
  Lemma container_settings d attrs ll : is_named d = true -> snd (container_from_ast parse_path parse_where parse_type d attrs) = [] ->
    Forall2 creads (items attrs) ll -> container_has (concat ll) (fst (container_from_ast parse_path parse_where parse_type d attrs)).
  Proof.
    intros ND E F. apply container_accepted_iff in E as (W & ll' & F' & N); [|exact ND].
    rewrite (reads_all_fun creads creads_fun _ _ _ F F').
    destruct (over_attrs_ok (item d) creads csort cholds capply capply_new (container_item_reads d ND) attrs ll' W F' cslots0 [] cholds0 N) as (s & O & H).
    exact (container_of_slots d s (concat ll') attrs H O).
  Qed.

  (* ---------------- the whole macro ---------------- *)
  Notation freads := (freads parse_path parse_where).
  Notation derive := (derive parse_path parse_where parse_type).
  Notation says_struct := (says_struct parse_path parse_where parse_type).
  Notation says_field := (says_field parse_path parse_where).
  Notation column_name := (column_name parse_path parse_where).
  Lemma says_field_iff i a d : (exists l, says_field a l) <-> snd (field_from_ast parse_path parse_where i a d) = [].
  Proof.
    rewrite field_accepted_iff. unfold says_field. split.
    - intros (l & W & N & ll & F & ->). eauto.
    - intros (W & ll & F & N). exists (concat ll). eauto.
  Qed.
  Lemma fields_errs l d : snd (fields_from_ast parse_path parse_where l d) = [] <-> Forall (fun f => exists s, says_field (snd f) s) l.
  Proof.
    induction l as [|[i a] l IH]; cbn [fields_from_ast].
    - split; [constructor|reflexivity].
    - pose proof (says_field_iff i a d) as P. destruct (field_from_ast parse_path parse_where i a d) as [f e].
      destruct (fields_from_ast parse_path parse_where l d) as [fs es]. cbn [snd] in *. split.
      + intros E. apply app_eq_nil in E as [-> ->]. constructor; [now apply P|now apply IH].
      + intros F. pose proof (Forall_inv F) as F1. cbv beta in F1. cbn [snd] in F1. apply P in F1. rewrite F1.
        apply Forall_inv_tail in F. apply IH in F. now rewrite F.
  Qed.
  Lemma fields_length l d : length (fst (fields_from_ast parse_path parse_where l d)) = length l.
  Proof.
    induction l as [|[i a] l IH]; cbn [fields_from_ast]; [reflexivity|].
    destruct (field_from_ast parse_path parse_where i a d) as [f e]. destruct (fields_from_ast parse_path parse_where l d) as [fs es].
    cbn [fst length] in *. now rewrite IH.
  Qed.
  Lemma fields_nth l d : Forall (fun f => exists s, says_field (snd f) s) l ->
    Forall2 (fun f x => forall s, says_field (snd f) s -> field_has (unraw (fst f)) d s x) l (fst (fields_from_ast parse_path parse_where l d)).
  Proof.
    induction l as [|[i a] l IH]; intros F; cbn [fields_from_ast]; [constructor|].
    pose proof (Forall_inv F) as F1. cbv beta in F1. cbn [snd] in F1. specialize (IH (Forall_inv_tail F)).
    pose proof (proj1 (says_field_iff i a d) F1) as E1.
    assert (H : forall s, says_field a s -> field_has (unraw i) d s (fst (field_from_ast parse_path parse_where i a d))).
    { intros s (W & N & ll & FF & ->). exact (field_settings parse_path parse_where i a d ll E1 FF). }
    destruct (field_from_ast parse_path parse_where i a d) as [f e]. destruct (fields_from_ast parse_path parse_where l d) as [fs es].
    cbn [fst snd] in *. constructor; auto.
  Qed.

  Lemma says_struct_iff d a : is_named d = true ->
    (exists l, says_struct a l) <-> snd (container_from_ast parse_path parse_where parse_type d a) = [].
  Proof.
    intros ND. rewrite (container_accepted_iff d a ND). unfold says_struct. split.
    - intros (l & W & N & ll & F & ->). eauto.
    - intros (W & ll & F & N). exists (concat ll). eauto.
  Qed.
  Lemma says_field_fun a l l' : says_field a l -> says_field a l' -> l = l'.
  Proof. intros (_ & _ & ll & F & ->) (_ & _ & ll' & F' & ->). f_equal. exact (reads_all_fun freads (freads_fun parse_path parse_where) _ _ _ F F'). Qed.
  Lemma says_struct_fun a l l' : says_struct a l -> says_struct a l' -> l = l'.
  Proof. intros (_ & _ & ll & F & ->) (_ & _ & ll' & F' & ->). f_equal. exact (reads_all_fun creads creads_fun _ _ _ F F'). Qed.

  Lemma rename_ok r i d (s : list (@fsetting where_)) f f' : field_has (unraw i) d s f -> rename_by_rules r f = Ok f' ->
    exists n, named_by r i s n /\ field_has n d s f'.
  Proof.
    intros H E. unfold rename_by_rules in E. destruct (f_renamed f) eqn:R.
    - injection E as <-. exists (f_name f). destruct (proj1 (fh_renamed _ _ _ _ H) R) as [t I]. split.
      + intros N. now elim (N t).
      + destruct H. split; auto.
    - destruct (apply_to_field r (f_name f)) as [n| |] eqn:A; try discriminate E. cbn [rbind] in E. injection E as <-.
      assert (N : forall t, ~ In (FRename t) s).
      { intros t I. assert (X : f_renamed f = true) by (apply (fh_renamed _ _ _ _ H); eauto). congruence. }
      exists n. split.
      + intros _. rewrite <- (fh_name _ _ _ _ H N). exact A.
      + destruct H. split; cbn [f_name f_renamed f_skip_ser f_skip_de f_default f_ser f_de f_bound f_nested f_flatten]; auto.
        * intros t I. now elim (N t).
        * rewrite <- R. exact fh_renamed.
  Qed.
  Lemma rename_exists r i d (s : list (@fsetting where_)) f : field_has (unraw i) d s f -> (exists n, named_by r i s n) -> exists f', rename_by_rules r f = Ok f'.
  Proof.
    intros H (n & N). unfold rename_by_rules. destruct (f_renamed f) eqn:R; [eauto|].
    assert (NR : forall t, ~ In (FRename t) s).
    { intros t I. assert (X : f_renamed f = true) by (apply (fh_renamed _ _ _ _ H); eauto). congruence. }
    rewrite (fh_name _ _ _ _ H NR), (N NR). cbn [rbind]. eauto.
  Qed.

  Lemma conflict_spec (cs : list setting) c : container_has cs c -> (given (c_from c) && given (c_try_from c))%bool = false <-> no_conflict cs.
  Proof.
    intros H. unfold no_conflict. split.
    - intros E t u [I J]. apply (ch_from _ _ H) in I. apply (ch_try_from _ _ H) in J. rewrite I, J in E. discriminate E.
    - intros N. destruct (c_from c) as [t|] eqn:F, (c_try_from c) as [u|] eqn:G; try reflexivity.
      elim (N t u). split; [now apply (ch_from _ _ H)|now apply (ch_try_from _ _ H)].
  Qed.

  Lemma mapM_forall2 {A B C} (f : B -> res C) (P : A -> B -> Prop) (Q : A -> C -> Prop) : (forall a b c, P a b -> f b = Ok c -> Q a c) ->
    forall la lb lc, Forall2 P la lb -> mapM f lb = Ok lc -> Forall2 Q la lc.
  Proof.
    intros H la lb lc F. revert lc. induction F as [|a b la lb AB F IH]; intros lc E; cbn [mapM] in E.
    - injection E as <-. constructor.
    - destruct (f b) as [c| |] eqn:FB; try discriminate E. cbn [rbind] in E. destruct (mapM f lb) as [cs| |]; try discriminate E.
      cbn [rbind] in E. injection E as <-. constructor; [now apply (H a b)|now apply IH].
  Qed.
  Lemma mapM_exists {A B C} (f : B -> res C) (P : A -> B -> Prop) : (forall a b, P a b -> exists c, f b = Ok c) ->
    forall la lb, Forall2 P la lb -> exists lc, mapM f lb = Ok lc.
  Proof.
    intros H la lb F. induction F as [|a b la lb AB F [lc E]]; cbn [mapM]; [eauto|]. destruct (H a b AB) as [c ->]. cbn [rbind].
    rewrite E. cbn [rbind]. eauto.
  Qed.

  (** What the accepted declaration means. *)
  Lemma derive_ok attrs l c fs : derive attrs (DNamed l) = ROk c fs ->
    exists cs, says_struct attrs cs /\ no_conflict cs /\ container_has cs c /\
      Forall2 (fun f x => exists s n, says_field (snd f) s /\ named_by (c_rename_all c) (fst f) s n /\ field_has n (c_default c) s x) l fs.
  Proof.
    unfold derive. pose proof (says_struct_iff (DNamed l) attrs eq_refl) as P.
    pose proof (fun ll => container_settings (DNamed l) attrs ll eq_refl) as Q.
    destruct (container_from_ast parse_path parse_where parse_type (DNamed l) attrs) as [c0 e1]. cbn [fst snd] in *.
    pose proof (fields_errs l (c_default c0)) as FE. pose proof (fields_nth l (c_default c0)) as FN.
    destruct (fields_from_ast parse_path parse_where l (c_default c0)) as [fs0 e2]. cbn [fst snd] in *.
    destruct (mapM (rename_by_rules (c_rename_all c0)) fs0) as [fs'| |] eqn:M; try discriminate.
    intros E.
    assert (Z : e1 ++ e2 ++ (if given (c_from c0) && given (c_try_from c0) then [EFromAndTryFrom] else []) = [] /\ c0 = c /\ fs' = fs).
    { destruct (e1 ++ e2 ++ _); [|discriminate E]. injection E as -> ->. auto. }
    destruct Z as (Z & -> & ->). apply app_eq_nil in Z as [-> Z]. apply app_eq_nil in Z as [-> Z].
    destruct (proj2 P eq_refl) as [cs SS]. exists cs. split; [exact SS|].
    assert (CH : container_has cs c) by (destruct SS as (_ & _ & ll & F & ->); exact (Q ll eq_refl F)).
    split; [|split; [exact CH|]].
    - apply (conflict_spec cs c CH). destruct (given (c_from c) && given (c_try_from c))%bool; [discriminate Z|reflexivity].
    - pose proof (proj1 FE eq_refl) as FA. specialize (FN FA).
      assert (FN' : Forall2 (fun f x => exists s, says_field (snd f) s /\ field_has (unraw (fst f)) (c_default c) s x) l fs0).
      { clear - FA FN. induction FN as [|f x l fs0 H FN IH]; [constructor|]. pose proof (Forall_inv FA) as [s S]. cbv beta in S.
        constructor; [eauto|]. apply IH. now apply Forall_inv_tail in FA. }
      revert M. apply mapM_forall2 with (2 := FN'). intros f x y (s & S & H) R.
      destruct (rename_ok _ _ _ _ _ _ H R) as (n & N & H'). eauto.
  Qed.
  (** Which declarations are accepted. *)
  Lemma derive_accepts attrs l cs : says_struct attrs cs -> no_conflict cs ->
    (forall r, (In (CRenameAll r) cs \/ (r = RNone /\ forall r', ~ In (CRenameAll r') cs)) -> Forall (fun f => column_name r (fst f) (snd f)) l) ->
    exists c fs, derive attrs (DNamed l) = ROk c fs.
  Proof.
    intros SS NC CN. unfold derive. pose proof (says_struct_iff (DNamed l) attrs eq_refl) as P.
    pose proof (fun ll => container_settings (DNamed l) attrs ll eq_refl) as Q.
    destruct (container_from_ast parse_path parse_where parse_type (DNamed l) attrs) as [c e1]. cbn [fst snd] in *.
    assert (e1 = []) by (apply P; eauto). subst e1.
    assert (CH : container_has cs c) by (destruct SS as (_ & _ & ll & F & ->); exact (Q ll eq_refl F)).
    assert (CN' : Forall (fun f => column_name (c_rename_all c) (fst f) (snd f)) l).
    { apply CN. clear - CH. destruct (in_dec Nat.eq_dec 3%nat (map csort cs)) as [I|I].
      - apply in_map_iff in I as (x & E & I). destruct x; try discriminate E. left. now rewrite (ch_rename_all _ _ CH r I).
      - right. assert (N : forall r, ~ In (CRenameAll r) cs) by (intros r J; apply I; now apply (in_map csort) in J).
        split; [now apply (ch_no_rename_all _ _ CH)|exact N]. }
    assert (FA : Forall (fun f => exists s, says_field (snd f) s) l).
    { eapply Forall_impl; [|exact CN']. intros f (s & n & S & _). eauto. }
    pose proof (fields_errs l (c_default c)) as FE. pose proof (fields_nth l (c_default c) FA) as FN.
    destruct (fields_from_ast parse_path parse_where l (c_default c)) as [fs0 e2]. cbn [fst snd] in *.
    assert (e2 = []) by now apply FE. subst e2.
    destruct (mapM_exists (rename_by_rules (c_rename_all c))
      (fun f x => column_name (c_rename_all c) (fst f) (snd f) /\ forall s, says_field (snd f) s -> field_has (unraw (fst f)) (c_default c) s x)) with (la := l) (lb := fs0) as [fs' M].
    - intros f x ((s & n & S & N) & H). apply (rename_exists _ _ _ _ _ (H s S)). eauto.
    - clear - CN' FN. induction FN as [|f x l fs0 H FN IH]; [constructor|]. constructor; [split; [exact (Forall_inv CN')|exact H]|].
      apply IH. now apply Forall_inv_tail in CN'.
    - rewrite M. rewrite (proj2 (conflict_spec cs c CH) NC). cbn. eauto.
  Qed.
  Lemma derive_only_named attrs d c fs : derive attrs d = ROk c fs -> exists l, d = DNamed l.
  Proof.
    unfold derive. destruct (container_from_ast parse_path parse_where parse_type d attrs) as [c0 e1].
    destruct d as [l| | | |]; [eauto|..]; cbn [mapM]; intros E; try discriminate E; exfalso;
      destruct e1; discriminate E.
  Qed.
End Containers.
