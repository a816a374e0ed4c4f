(** Equality and hashing of values. *)
From Verif Require Import Base Types Hashing LowCardProofs.

(** Every geo coordinate in a value, in order (as f64 bits). *)
Definition point_coords (p : point) : list N := [fst p; snd p].
Fixpoint coordinates (v : value) : list N :=
  match v with
  | VPoint p => point_coords p
  | VRing r => flat_map point_coords r
  | VPolygon p => flat_map (flat_map point_coords) p
  | VMultiPolygon m => flat_map (flat_map (flat_map point_coords)) m
  | VArray l | VTuple l => flat_map coordinates l
  | VMap ks vs => flat_map coordinates ks ++ flat_map coordinates vs
  | _ => []
  end.

Definition agree {A} (e : A -> A -> bool) (h : A -> list hword) (c : A -> list N) (a : A) : Prop :=
  forall b, e a b = true -> length (h a) = length (h b) /\ length (c a) = length (c b) /\ (h a = h b <-> c a = c b).

Lemma app_inj_len {A} (a b c d : list A) : length a = length b -> a ++ c = b ++ d <-> a = b /\ c = d.
Proof.
  revert b. induction a as [|x a IH]; intros [|y b] L; try discriminate; cbn [app].
  - split; [auto|intros [_ H]; exact H].
  - injection L as L. split.
    + intros H. injection H as -> H. apply (IH b L) in H as [-> ->]. auto.
    + intros [H ->]. injection H as -> ->. reflexivity.
Qed.

Lemma list_eqb_length {A} (e : A -> A -> bool) l m : list_eqb e l m = true -> length l = length m.
Proof. revert m. induction l as [|x l IH]; intros [|y m] H; try discriminate; [reflexivity|]. cbn [list_eqb] in H. apply andb_prop in H as [_ H]. cbn [length]. f_equal. auto. Qed.

Lemma agree_list {A} (e : A -> A -> bool) h c l : Forall (agree e h c) l -> agree (list_eqb e) (flat_map h) (flat_map c) l.
Proof.
  induction 1 as [|a l Ha _ IH]; intros [|b m] E; try discriminate; [cbn; tauto|].
  cbn [list_eqb] in E. apply andb_prop in E as [E1 E2]. destruct (Ha b E1) as (L1 & L2 & I1). destruct (IH m E2) as (L3 & L4 & I2).
  cbn [flat_map]. rewrite !app_length. split; [congruence|]. split; [congruence|].
  rewrite (app_inj_len _ _ _ _ L1), (app_inj_len _ _ _ _ L2). tauto.
Qed.
Lemma agree_cons {A} (e : A -> A -> bool) h c w a : (forall b, e a b = true -> w a = w b) -> agree e h c a -> agree e (fun x => w x :: h x) c a.
Proof.
  intros W H b E. destruct (H b E) as (L & M & I). cbn [length]. split; [congruence|]. split; [exact M|]. rewrite <- I.
  rewrite (W b E). split; [intros X; now injection X|congruence].
Qed.
Lemma agree_hash_list {A} (e : A -> A -> bool) h c l : Forall (agree e h c) l -> agree (list_eqb e) (hash_list h) (flat_map c) l.
Proof.
  intros F. apply (agree_cons _ (flat_map h) _ (fun l => HLen (lenN l))); [|now apply agree_list].
  intros m E. apply list_eqb_length in E. unfold lenN. now rewrite E.
Qed.
Lemma agree_all {A} (e : A -> A -> bool) h c l : (forall a, agree e h c a) -> Forall (agree e h c) l.
Proof. intros H. apply Forall_forall. auto. Qed.
Lemma agree_point p : agree point_eqb hash_point point_coords p.
Proof.
  intros q _. split; [reflexivity|]. split; [reflexivity|]. unfold hash_point, point_coords. split; intros H; injection H as A B.
  - apply N2Z.inj in A, B. now rewrite A, B.
  - now rewrite A, B.
Qed.
Lemma agree_ring r : agree ring_eqb hash_ring (flat_map point_coords) r.
Proof. apply agree_hash_list, agree_all, agree_point. Qed.
Lemma agree_polygon r : agree polygon_eqb hash_polygon (flat_map (flat_map point_coords)) r.
Proof. apply agree_hash_list, agree_all, agree_ring. Qed.
Lemma agree_multi r : agree multipolygon_eqb hash_multipolygon (flat_map (flat_map (flat_map point_coords))) r.
Proof. apply agree_hash_list, agree_all, agree_polygon. Qed.

Lemma cons_iff {A} (w : A) l m (P : Prop) : (l = m <-> P) -> (w :: l = w :: m <-> P).
Proof. intros <-. split; [intros H; now injection H|congruence]. Qed.

Lemma agree_value a : agree value_eqb hash_value coordinates a.
Proof.
  induction a as [v Hv|l IH|l IH|ks vs IHk IHv] using value_nested_ind; intros b E.
  - destruct (no_geo v) eqn:G.
    + apply (value_eqb_eq v G) in E. subst. tauto.
    + destruct v; try discriminate G; try contradiction Hv; destruct b; try discriminate E; cbn [value_eqb] in E; cbn [hash_value coordinates discriminant].
      * destruct (agree_point _ _ E) as (A & B & C). cbn [length]. split; [congruence|]. split; [exact B|]. now apply cons_iff.
      * destruct (agree_ring _ _ E) as (A & B & C). cbn [length]. split; [congruence|]. split; [exact B|]. now apply cons_iff.
      * destruct (agree_polygon _ _ E) as (A & B & C). cbn [length]. split; [congruence|]. split; [exact B|]. now apply cons_iff.
      * destruct (agree_multi _ _ E) as (A & B & C). cbn [length]. split; [congruence|]. split; [exact B|]. now apply cons_iff.
  - destruct b; try discriminate E. cbn [value_eqb] in E. destruct (agree_hash_list _ _ _ l IH _ E) as (A & B & C).
    cbn [hash_value coordinates]. unfold hash_list in *. cbn [length] in *. split; [congruence|]. split; [exact B|]. now apply cons_iff.
  - destruct b; try discriminate E. cbn [value_eqb] in E. destruct (agree_hash_list _ _ _ l IH _ E) as (A & B & C).
    cbn [hash_value coordinates]. unfold hash_list in *. cbn [length] in *. split; [congruence|]. split; [exact B|]. now apply cons_iff.
  - destruct b; try discriminate E. cbn [value_eqb] in E. apply andb_prop in E as [E1 E2].
    destruct (agree_hash_list _ _ _ ks IHk _ E1) as (A & B & C). destruct (agree_hash_list _ _ _ vs IHv _ E2) as (A' & B' & C').
    cbn [hash_value coordinates]. fold (hash_list hash_value ks) (hash_list hash_value vs) (hash_list hash_value ks0) (hash_list hash_value vs0).
    cbn [length]. rewrite !app_length. split; [congruence|]. split; [congruence|]. apply cons_iff.
    rewrite (app_inj_len _ _ _ _ A), (app_inj_len _ _ _ _ B). tauto.
Qed.

(* ---------------- equivalence ---------------- *)

Lemma f64_eqb_sym a b : f64_eqb a b = f64_eqb b a.
Proof. unfold f64_eqb. rewrite (orb_comm (f64_nan b)), (andb_comm (f64_zero b)), (N.eqb_sym b). reflexivity. Qed.
Lemma f64_eqb_refl a : f64_eqb a a = negb (f64_nan a).
Proof. unfold f64_eqb. rewrite orb_diag, N.eqb_refl, orb_true_r. now destruct (f64_nan a). Qed.
Lemma f64_eqb_trans a b c : f64_eqb a b = true -> f64_eqb b c = true -> f64_eqb a c = true.
Proof.
  unfold f64_eqb. destruct (f64_nan a) eqn:NA, (f64_nan b) eqn:NB, (f64_nan c) eqn:NC; cbn [orb]; try discriminate.
  rewrite !orb_true_iff, !andb_true_iff, !N.eqb_eq. intros [[A B]|A] [[C D]|C]; subst; auto.
Qed.

Lemma list_eqb_sym {A} (e : A -> A -> bool) l : Forall (fun a => forall b, e a b = e b a) l -> forall m, list_eqb e l m = list_eqb e m l.
Proof. induction 1 as [|a l Ha _ IH]; intros [|b m]; try reflexivity. cbn [list_eqb]. now rewrite Ha, IH. Qed.
Lemma list_eqb_trans {A} (e : A -> A -> bool) l : Forall (fun a => forall b c, e a b = true -> e b c = true -> e a c = true) l ->
  forall m n, list_eqb e l m = true -> list_eqb e m n = true -> list_eqb e l n = true.
Proof.
  induction 1 as [|a l Ha _ IH]; intros [|b m] [|c n]; try discriminate; [reflexivity|]. cbn [list_eqb]. rewrite !andb_true_iff.
  intros [E1 E2] [E3 E4]. split; eauto.
Qed.
Lemma all_sym {A} (e : A -> A -> bool) l : (forall a b, e a b = e b a) -> Forall (fun a => forall b, e a b = e b a) l.
Proof. intros H. apply Forall_forall. auto. Qed.
Lemma all_trans {A} (e : A -> A -> bool) l : (forall a b c, e a b = true -> e b c = true -> e a c = true) ->
  Forall (fun a => forall b c, e a b = true -> e b c = true -> e a c = true) l.
Proof. intros H. apply Forall_forall. intros a _. apply H. Qed.

Lemma point_eqb_sym a b : point_eqb a b = point_eqb b a.
Proof. unfold point_eqb. now rewrite (f64_eqb_sym (fst a)), (f64_eqb_sym (snd a)). Qed.
Lemma ring_eqb_sym a b : ring_eqb a b = ring_eqb b a.
Proof. apply list_eqb_sym, all_sym, point_eqb_sym. Qed.
Lemma polygon_eqb_sym a b : polygon_eqb a b = polygon_eqb b a.
Proof. apply list_eqb_sym, all_sym, ring_eqb_sym. Qed.
Lemma multi_eqb_sym a b : multipolygon_eqb a b = multipolygon_eqb b a.
Proof. apply list_eqb_sym, all_sym, polygon_eqb_sym. Qed.
Lemma point_eqb_trans a b c : point_eqb a b = true -> point_eqb b c = true -> point_eqb a c = true.
Proof. unfold point_eqb. rewrite !andb_true_iff. intros [A B] [C D]. split; eapply f64_eqb_trans; eauto. Qed.
Lemma ring_eqb_trans a b c : ring_eqb a b = true -> ring_eqb b c = true -> ring_eqb a c = true.
Proof. apply list_eqb_trans, all_trans, point_eqb_trans. Qed.
Lemma polygon_eqb_trans a b c : polygon_eqb a b = true -> polygon_eqb b c = true -> polygon_eqb a c = true.
Proof. apply list_eqb_trans, all_trans, ring_eqb_trans. Qed.
Lemma multi_eqb_trans a b c : multipolygon_eqb a b = true -> multipolygon_eqb b c = true -> multipolygon_eqb a c = true.
Proof. apply list_eqb_trans, all_trans, polygon_eqb_trans. Qed.

Lemma iw_eqb_sym a b : iw_eqb a b = iw_eqb b a. Proof. now destruct a, b. Qed.
Lemma bytes_eqb_sym a b : bytes_eqb a b = bytes_eqb b a.
Proof. apply list_eqb_sym, all_sym, N.eqb_sym. Qed.

Lemma value_eqb_sym a : forall b, value_eqb a b = value_eqb b a.
Proof.
  induction a as [v Hv|l IH|l IH|ks vs IHk IHv] using value_nested_ind; intros b.
  - destruct v; try contradiction Hv; destruct b; try reflexivity; cbn [value_eqb];
      rewrite ?(iw_eqb_sym w), ?(N.eqb_sym x), ?(Z.eqb_sym x), ?(N.eqb_sym bits), ?(N.eqb_sym s), ?(bytes_eqb_sym be), ?(bytes_eqb_sym bs), ?(N.eqb_sym n), ?(N.eqb_sym d), ?(N.eqb_sym z), ?(N.eqb_sym t), ?(N.eqb_sym p), ?(bytes_eqb_sym octets); try reflexivity.
    + apply point_eqb_sym.
    + apply ring_eqb_sym.
    + apply polygon_eqb_sym.
    + apply multi_eqb_sym.
  - destruct b; try reflexivity. cbn [value_eqb]. now apply list_eqb_sym.
  - destruct b; try reflexivity. cbn [value_eqb]. now apply list_eqb_sym.
  - destruct b; try reflexivity. cbn [value_eqb]. now rewrite (list_eqb_sym _ ks IHk), (list_eqb_sym _ vs IHv).
Qed.

Lemma value_eqb_trans a : forall b c, value_eqb a b = true -> value_eqb b c = true -> value_eqb a c = true.
Proof.
  induction a as [v Hv|l IH|l IH|ks vs IHk IHv] using value_nested_ind; intros b c A B.
  - destruct (no_geo v) eqn:G; [apply (value_eqb_eq v G) in A; now subst|].
    destruct v; try discriminate G; try contradiction Hv; destruct b; try discriminate A; destruct c; try discriminate B; cbn [value_eqb] in *.
    + eapply point_eqb_trans; eauto.
    + eapply ring_eqb_trans; eauto.
    + eapply polygon_eqb_trans; eauto.
    + eapply multi_eqb_trans; eauto.
  - destruct b; try discriminate A; destruct c; try discriminate B; cbn [value_eqb] in *. eapply list_eqb_trans; eauto.
  - destruct b; try discriminate A; destruct c; try discriminate B; cbn [value_eqb] in *. eapply list_eqb_trans; eauto.
  - destruct b; try discriminate A; destruct c; try discriminate B; cbn [value_eqb] in *. rewrite andb_true_iff in *.
    split; eapply list_eqb_trans; try eassumption; apply A || apply B.
Qed.

Definition clean (l : list N) : bool := forallb (fun b => negb (f64_nan b)) l.
Definition refl_iff {A} (e : A -> A -> bool) (c : A -> list N) (a : A) : Prop := e a a = clean (c a).
Lemma refl_list {A} (e : A -> A -> bool) c l : Forall (refl_iff e c) l -> refl_iff (list_eqb e) (flat_map c) l.
Proof.
  induction 1 as [|a l Ha _ IH]; unfold refl_iff in *; [reflexivity|]. cbn [list_eqb flat_map]. unfold clean in *. rewrite forallb_app. now rewrite Ha, IH.
Qed.
Lemma refl_all {A} (e : A -> A -> bool) c l : (forall a, refl_iff e c a) -> Forall (refl_iff e c) l.
Proof. intros H. apply Forall_forall. auto. Qed.
Lemma refl_point p : refl_iff point_eqb point_coords p.
Proof. unfold refl_iff, point_eqb, point_coords, clean. cbn [forallb]. now rewrite !f64_eqb_refl, andb_true_r. Qed.
Lemma refl_ring r : refl_iff ring_eqb (flat_map point_coords) r.
Proof. apply refl_list, refl_all, refl_point. Qed.
Lemma refl_polygon r : refl_iff polygon_eqb (flat_map (flat_map point_coords)) r.
Proof. apply refl_list, refl_all, refl_ring. Qed.
Lemma refl_multi r : refl_iff multipolygon_eqb (flat_map (flat_map (flat_map point_coords))) r.
Proof. apply refl_list, refl_all, refl_polygon. Qed.
Lemma refl_value a : refl_iff value_eqb coordinates a.
Proof.
  induction a as [v Hv|l IH|l IH|ks vs IHk IHv] using value_nested_ind.
  - destruct (no_geo v) eqn:G; [unfold refl_iff; rewrite (value_eqb_refl v G); destruct v; try discriminate G; try contradiction Hv; reflexivity|].
    destruct v; try discriminate G; try contradiction Hv.
    + apply refl_point. + apply refl_ring. + apply refl_polygon. + apply refl_multi.
  - exact (refl_list _ _ l IH).
  - exact (refl_list _ _ l IH).
  - unfold refl_iff. cbn [value_eqb coordinates]. rewrite (refl_list _ _ ks IHk), (refl_list _ _ vs IHv). unfold clean. now rewrite forallb_app.
Qed.
