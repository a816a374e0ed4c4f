(** Specification and lemmas for property C65 (conversions from and to geo_types). *)
From Verif Require Import Base Types HashingProofs Geo.

(* ---------------- specification ---------------- *)
(** A ring is closed if its last point equals its first (as numbers); an empty one is closed. *)
Definition closed (l : list point) : Prop := forall p q m, l = p :: m -> last l p = q -> point_eqb p q = true.
Definition polygon_closed (g : geo_polygon) : Prop := closed (exterior g) /\ Forall closed (interiors g).
(** A ring that begins with a number. *)
Definition starts_with_number (l : list point) : Prop := forall p m, l = p :: m -> f64_nan (fst p) = false /\ f64_nan (snd p) = false.
(** The same ring, closed. *)
Definition closes (l l' : list point) : Prop := (closed l /\ l' = l) \/ (~ closed l /\ exists p m, l = p :: m /\ l' = l ++ [p]).

(** The polygon as rings: the outer one first, each closed; no rings at all means an empty outer ring. *)
Definition polygon_reads (p : polygon) (g : geo_polygon) : Prop :=
  match p with
  | [] => exterior g = [] /\ interiors g = []
  | e :: r => closes e (exterior g) /\ Forall2 closes r (interiors g)
  end.
Definition polygon_rings (g : geo_polygon) : polygon := exterior g :: interiors g.

Lemma is_closed_spec l : is_closed l = true <-> closed l.
Proof.
  destruct l as [|p m]; unfold is_closed, closed.
  - split; [intros _ p q m H; discriminate H|reflexivity].
  - split.
    + intros H p' q m' E <-. injection E as <- <-. exact H.
    + intros H. exact (H p _ m eq_refl eq_refl).
Qed.
Lemma close_closes l : closes l (close l).
Proof.
  unfold closes. destruct (is_closed l) eqn:E.
  - left. apply is_closed_spec in E as C. split; [exact C|]. destruct l as [|p m]; [reflexivity|]. unfold close. now rewrite E.
  - right. split; [rewrite <- is_closed_spec; congruence|]. destruct l as [|p m]; [discriminate E|]. exists p, m. split; [reflexivity|].
    unfold close. now rewrite E.
Qed.
Lemma closes_fun l a b : closes l a -> closes l b -> a = b.
Proof.
  intros [[C ->]|[N (p & m & E & ->)]] [[C' ->]|[N' (p' & m' & E' & ->)]]; try tauto. rewrite E in E'. now injection E' as -> ->.
Qed.
Lemma close_id l : close l = l <-> closed l.
Proof.
  destruct (close_closes l) as [[C E]|[N (p & m & E & F)]]; [tauto|]. split; [|tauto]. intros X. rewrite F in X.
  apply (f_equal (@length _)) in X. rewrite app_length in X. cbn in X. lia.
Qed.
Lemma point_id p : point_of_geo p = p.
Proof. destruct p. reflexivity. Qed.
Lemma ring_id l : ring_of_geo l = l.
Proof. unfold ring_of_geo. rewrite (map_ext _ (fun x => x) point_id). apply map_id. Qed.
Lemma geo_ring_id l : geo_of_ring l = l.
Proof. exact (ring_id l). Qed.
Lemma rings_id ls : map ring_of_geo ls = ls.
Proof. rewrite (map_ext _ (fun x => x) ring_id). apply map_id. Qed.
Lemma geo_rings_id ls : map geo_of_ring ls = ls.
Proof. exact (rings_id ls). Qed.
Lemma map_close_id ls : map close ls = ls <-> Forall closed ls.
Proof.
  induction ls as [|l ls IH]; cbn [map]; [split; [constructor|reflexivity]|]. split.
  - intros H. injection H as H1 H2. constructor; [now apply close_id|now apply IH].
  - intros H. f_equal; [apply close_id; exact (Forall_inv H)|apply IH; exact (Forall_inv_tail H)].
Qed.
Lemma close_is_closed l : starts_with_number l -> closed (close l).
Proof.
  intros S. destruct (close_closes l) as [[C ->]|[N (p & m & E & F)]]; [exact C|]. rewrite F. intros p' q m' E' L. rewrite last_last in L.
  rewrite E in E'. injection E' as <- <-. subst q. destruct (S p m E) as [A B]. unfold point_eqb. rewrite !f64_eqb_refl, A, B. reflexivity.
Qed.
Lemma polygon_there_and_back g : geo_of_polygon (polygon_of_geo g) = {| exterior := close (exterior g); interiors := map close (interiors g) |}.
Proof. unfold geo_of_polygon, polygon_of_geo, polygon_new. now rewrite ring_id, geo_ring_id, rings_id, geo_rings_id. Qed.

Lemma polygon_of_geo_rings g : polygon_of_geo g = polygon_rings g.
Proof. unfold polygon_of_geo, polygon_rings. now rewrite ring_id, rings_id. Qed.
Lemma geo_of_polygon_reads p : polygon_reads p (geo_of_polygon p).
Proof.
  destruct p as [|e r]; cbn [polygon_reads geo_of_polygon polygon_new exterior interiors]; [split; reflexivity|].
  rewrite geo_ring_id, geo_rings_id. split; [apply close_closes|]. induction r; cbn [map]; constructor; [apply close_closes|assumption].
Qed.
