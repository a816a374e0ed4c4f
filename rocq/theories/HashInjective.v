(** The calls a hasher gets tell values apart. *)
From Coq Require Import Lia.
From Verif Require Import Base Types Hashing HashingProofs.
Local Open Scope list_scope.

Definition code {A} (h : A -> list hword) (a : A) : Prop := forall b r r', h a ++ r = h b ++ r' -> a = b /\ r = r'.
Lemma code_flat {A} (h : A -> list hword) l : Forall (code h) l -> forall m r r', length l = length m ->
  flat_map h l ++ r = flat_map h m ++ r' -> l = m /\ r = r'.
Proof.
  induction 1 as [|a l C _ IH]; intros [|b m] r r' L E; try discriminate L; cbn [flat_map app] in E; [auto|].
  rewrite <- !app_assoc in E. apply C in E as [<- E]. injection L as L. apply IH in E as [<- <-]; auto.
Qed.
Lemma lenN_inj {A B} (l : list A) (m : list B) : lenN l = lenN m -> length l = length m.
Proof. unfold lenN. apply Nnat.Nat2N.inj. Qed.
Lemma code_list {A} (h : A -> list hword) l : Forall (code h) l -> code (hash_list h) l.
Proof.
  intros C m r r' E. unfold hash_list in E. cbn [app] in E. injection E as L E. apply lenN_inj in L. exact (code_flat h l C m r r' L E).
Qed.
Lemma code_all {A} (h : A -> list hword) l : (forall a, code h a) -> Forall (code h) l.
Proof. intros H. apply Forall_forall. intros a _. apply H. Qed.
Lemma code_point p : code hash_point p.
Proof.
  intros [x y] r r' E. destruct p as [a b]. cbn in E. injection E as E1 E2 E3.
  apply N2Z.inj in E1, E2. subst. auto.
Qed.
Lemma code_ring x : code hash_ring x. Proof. apply code_list, code_all, code_point. Qed.
Lemma code_polygon x : code hash_polygon x. Proof. apply code_list, code_all, code_ring. Qed.
Lemma code_multi x : code hash_multipolygon x. Proof. apply code_list, code_all, code_polygon. Qed.
Lemma width_index_inj a b : width_index a = width_index b -> a = b. Proof. destruct a, b; cbn; congruence. Qed.
Lemma code_bytes bs : code hash_bytes bs.
Proof. intros m r r' E. cbn in E. injection E as _ -> ->. auto. Qed.
Lemma hash_starts v : exists rest, hash_value v = HDisc (discriminant v) :: rest.
Proof. destruct v; cbn [hash_value]; eauto. Qed.
Definition same_variant (a b : value) : Prop :=
  match a, b with
  | VInt w _, VInt w' _ | VUInt w _, VUInt w' _ => w = w'
  | VInt256 _, VInt256 _ | VUInt256 _, VUInt256 _ | VFloat32 _, VFloat32 _ | VFloat64 _, VFloat64 _ | VBFloat16 _, VBFloat16 _
  | VDecimal32 _ _, VDecimal32 _ _ | VDecimal64 _ _, VDecimal64 _ _ | VDecimal128 _ _, VDecimal128 _ _ | VDecimal256 _ _, VDecimal256 _ _
  | VString _, VString _ | VUuid _, VUuid _ | VDate _, VDate _ | VDateTime _ _, VDateTime _ _ | VDateTime64 _ _ _, VDateTime64 _ _ _
  | VEnum8 _, VEnum8 _ | VEnum16 _, VEnum16 _ | VArray _, VArray _ | VTuple _, VTuple _ | VNull, VNull | VMap _ _, VMap _ _
  | VIpv4 _, VIpv4 _ | VIpv6 _, VIpv6 _ | VPoint _, VPoint _ | VRing _, VRing _ | VPolygon _, VPolygon _ | VMultiPolygon _, VMultiPolygon _ => True
  | _, _ => False
  end.
Lemma discriminant_variant a b : discriminant a = discriminant b -> same_variant a b.
Proof.
  intros D.
  destruct a as [[]| |[]| | | | | | | | | | | | | | | | | | | | | | | | | ], b as [[]| |[]| | | | | | | | | | | | | | | | | | | | | | | | | ];
    cbn in D; try discriminate D; cbn; auto.
Qed.
Lemma geo_case {A} (h : A -> list hword) (d : hword) (x y : A) r r' : code h x -> d :: h x ++ r = d :: h y ++ r' -> x = y /\ r = r'.
Proof. intros C E. apply C. now apply (f_equal (@tl hword)) in E. Qed.
Lemma code_value a : code hash_value a.
Proof.
  induction a as [v Hv|l IH|l IH|ks vs IHk IHv] using value_nested_ind; intros b r r' E.
  all: match goal with E : hash_value ?v ++ _ = _ |- _ => assert (D : same_variant v b)
    by (apply discriminant_variant; destruct (hash_starts v) as [x X], (hash_starts b) as [y Y]; rewrite X, Y in E; now injection E) end.
  - destruct v; try contradiction Hv; destruct b; cbn [same_variant] in D; try contradiction D; try subst; cbn [hash_value app] in E;
      try (first [apply (geo_case hash_bytes) in E; [|apply code_bytes]|apply (geo_case hash_point) in E; [|apply code_point]
                 |apply (geo_case hash_ring) in E; [|apply code_ring]|apply (geo_case hash_polygon) in E; [|apply code_polygon]
                 |apply (geo_case hash_multipolygon) in E; [|apply code_multi]]; destruct E as [-> ->]; now split);
      injection E; clear E; intros; repeat match goal with H : Z.of_N _ = Z.of_N _ |- _ => apply N2Z.inj in H end; subst; auto.
  - destruct b; try contradiction D. destruct (geo_case (hash_list hash_value) (HDisc 26) l l0 r r' (code_list _ _ IH) E) as [-> ->]. now split.
  - destruct b; try contradiction D. destruct (geo_case (hash_list hash_value) (HDisc 27) l l0 r r' (code_list _ _ IH) E) as [-> ->]. now split.
  - destruct b; try contradiction D. cbn [hash_value] in E.
    fold (hash_list hash_value ks) (hash_list hash_value vs) (hash_list hash_value ks0) (hash_list hash_value vs0) in E.
    apply (f_equal (@tl hword)) in E. cbn [tl app] in E. rewrite <- !app_assoc in E.
    apply (code_list _ _ IHk) in E as [-> E]. apply (code_list _ _ IHv) in E as [-> ->]. now split.
Qed.
Lemma hash_value_inj a b : hash_value a = hash_value b -> a = b.
Proof. intros H. apply (code_value a b [] []). now rewrite H. Qed.
