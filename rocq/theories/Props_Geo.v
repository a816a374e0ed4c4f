(** Property C65: shapes of the crate geo_types survive the trip through the database. *)
From Verif Require Import Base Types Ser Deser ColumnSpec ColumnProofs ColumnRoundtrip LowCardProofs WireProofs HashingProofs Geo GeoProofs.

(* ---------------- theorems ---------------- *)
(** Points, coordinates and line strings come back unchanged, NaN included. *)
Theorem C65_points_and_lines : (forall p, geo_of_point (point_of_geo p) = p) /\ (forall p, point_of_geo (geo_of_point p) = p) /\
  (forall l, geo_of_ring (ring_of_geo l) = l) /\ (forall l, ring_of_geo (geo_of_ring l) = l).
Proof.
  repeat split; try (intros [x y]; reflexivity); intros l.
  - now rewrite geo_ring_id, ring_id.
  - now rewrite ring_id, geo_ring_id.
Qed.
(** A polygon of geo_types comes back unchanged exactly if all its rings are closed... *)
Theorem C65_polygon_roundtrip : forall g, geo_of_polygon (polygon_of_geo g) = g <-> polygon_closed g.
Proof.
  intros g. rewrite polygon_there_and_back. destruct g as [e i]. unfold polygon_closed. cbn [exterior interiors]. split.
  - intros H. injection H as H1 H2. split; [now apply close_id|now apply map_close_id].
  - intros [A B]. f_equal; [now apply close_id|now apply map_close_id].
Qed.
(** ... which holds of every polygon [Polygon::new] makes of rings that begin with a number. *)
Theorem C65_new_polygons_are_closed : forall e i, starts_with_number e -> Forall starts_with_number i -> polygon_closed (polygon_new e i).
Proof.
  intros e i E I. split; cbn [exterior interiors polygon_new]; [now apply close_is_closed|].
  apply Forall_forall. intros l L. apply in_map_iff in L as (x & <- & L). apply close_is_closed. exact (proj1 (Forall_forall _ _) I x L).
Qed.
Theorem C65_multi_polygon_roundtrip : forall g, geo_of_multi (multi_of_geo g) = g <-> Forall polygon_closed g.
Proof.
  intros g. unfold geo_of_multi, multi_of_geo. rewrite map_map. induction g as [|x g IH]; cbn [map]; [split; [constructor|reflexivity]|]. split.
  - intros H. injection H as H1 H2. constructor; [now apply C65_polygon_roundtrip|now apply IH].
  - intros H. f_equal; [apply C65_polygon_roundtrip; exact (Forall_inv H)|apply IH; exact (Forall_inv_tail H)].
Qed.
(** In the other direction rings come back closed, and a polygon without rings comes back with an
    empty outer ring. *)
Theorem C65_read_polygon_is_closed : forall p, exists r, polygon_of_geo (geo_of_polygon p) = r /\
  (p = [] -> r = [[]]) /\ (p <> [] -> Forall2 closes p r).
Proof.
  intros p. eexists. split; [reflexivity|]. split; [intros ->; reflexivity|]. intros N. destruct p as [|e i]; [congruence|].
  unfold geo_of_polygon, polygon_of_geo, polygon_new. cbn [exterior interiors]. rewrite geo_ring_id, geo_rings_id, ring_id, rings_id.
  constructor; [apply close_closes|]. clear. induction i; cbn [map]; constructor; [apply close_closes|assumption].
Qed.
(** A [Ring] turned into a polygon is the polygon with that outer ring and no holes. *)
Theorem C65_ring_as_polygon : forall r, closes r (exterior (geo_polygon_of_ring r)) /\ interiors (geo_polygon_of_ring r) = [].
Proof.
  intros r. split; [|reflexivity]. cbn [geo_polygon_of_ring polygon_new exterior]. change (map geo_of_point r) with (geo_of_ring r).
  rewrite geo_ring_id. apply close_closes.
Qed.

Lemma ok_inj {A} (a b : A) : Ok a = Ok b -> a = b. Proof. now intros [= ->]. Qed.
(** What each shape is as an SQL value, and what each SQL value is as a shape: the same coordinates
    in the same order.  A column of another type is an error; no other value occurs in these columns. *)
Theorem C65_sent : forall p l g m,
  point_to_sql p = Ok (VPoint p) /\ line_to_sql l = Ok (VRing l) /\
  polygon_to_sql g = Ok (VPolygon (polygon_rings g)) /\ multi_to_sql m = Ok (VMultiPolygon (map polygon_rings m)).
Proof.
  intros p l g m. unfold point_to_sql, line_to_sql, polygon_to_sql, multi_to_sql, multi_of_geo.
  rewrite point_id, ring_id, polygon_of_geo_rings, (map_ext _ _ polygon_of_geo_rings). auto.
Qed.
Theorem C65_received : forall t v,
  (forall p, point_from_sql t v = Ok p <-> t = TPoint /\ v = VPoint p) /\
  (forall l, line_from_sql t v = Ok l <-> t = TRing /\ v = VRing l) /\
  (forall g, polygon_from_sql t v = Ok g -> t = TPolygon /\ exists p, v = VPolygon p /\ polygon_reads p g) /\
  (forall p, t = TPolygon -> v = VPolygon p -> exists g, polygon_from_sql t v = Ok g) /\
  (forall m, multi_from_sql t v = Ok m -> t = TMultiPolygon /\ exists p, v = VMultiPolygon p /\ Forall2 polygon_reads p m) /\
  (forall p, t = TMultiPolygon -> v = VMultiPolygon p -> exists m, multi_from_sql t v = Ok m) /\
  (t <> TPoint -> point_from_sql t v = Err EDeser) /\ (t <> TRing -> line_from_sql t v = Err EDeser) /\
  (t <> TPolygon -> polygon_from_sql t v = Err EDeser) /\ (t <> TMultiPolygon -> multi_from_sql t v = Err EDeser).
Proof.
  intros t v. split; [|split; [|split; [|split; [|split; [|split; [|repeat split; intros N; destruct t; try reflexivity; now elim N]]]]]].
  - intros p. destruct t; cbn [point_from_sql]; try (split; [discriminate|intros [H _]; discriminate H]). split.
    + destruct v; try discriminate. intros H. apply ok_inj in H as <-. split; [reflexivity|]. now rewrite (point_id p0 : geo_of_point p0 = p0).
    + intros [_ ->]. f_equal. exact (point_id p).
  - intros l. destruct t; cbn [line_from_sql]; try (split; [discriminate|intros [H _]; discriminate H]). split.
    + destruct v; try discriminate. intros H. apply ok_inj in H as <-. split; [reflexivity|]. now rewrite geo_ring_id.
    + intros [_ ->]. f_equal. apply geo_ring_id.
  - intros g. destruct t; cbn [polygon_from_sql]; try discriminate. destruct v; try discriminate. intros H. apply ok_inj in H as <-.
    split; [reflexivity|]. eexists. split; [reflexivity|apply geo_of_polygon_reads].
  - intros p -> ->. now eexists.
  - intros m. destruct t; cbn [multi_from_sql]; try discriminate. destruct v; try discriminate. intros H. apply ok_inj in H as <-.
    split; [reflexivity|]. eexists. split; [reflexivity|]. unfold geo_of_multi.
    match goal with |- Forall2 _ ?l _ => induction l; cbn [map]; constructor; [apply geo_of_polygon_reads|assumption] end.
  - intros p -> ->. now eexists.
Qed.

(** Written to a column of the database and read back as geo_types again: points and line strings
    whatever they are, polygons and multi polygons if their rings are closed. *)
Lemma through_a_column {A} (t : ty) (to : A -> res value) (of : ty -> value -> res A) (good : A -> Prop) :
  validate t = true ->
  (forall g v, to g = Ok v -> representable v = true -> sendable t v = true) ->
  (forall g v, to g = Ok v -> good g -> of t (normal t v) = Ok g) ->
  forall gs vs, Forall2 (fun g v => to g = Ok v) gs vs -> Forall good gs ->
  Forall (fun v => representable v = true) vs -> fits t vs ->
  exists bs, ser t vs = Ok bs /\ forall rest, exists ws, deser t (lenN vs) (bs ++ rest) = Ok (ws, rest) /\
    Forall2 (fun w g => of t w = Ok g) ws gs.
Proof.
  intros V S N gs vs T C R F. destruct (column_roundtrip t vs V) as (bs & E & _ & D).
  - clear - T R S. induction T as [|g v gs vs H T IH]; constructor; [exact (S g v H (Forall_inv R))|exact (IH (Forall_inv_tail R))].
  - exact F.
  - exists bs. split; [exact E|]. intros rest. exists (map (normal t) vs). split; [apply D|].
    clear - T C N. induction T as [|g v gs vs H T IH]; cbn [map]; constructor; [exact (N g v H (Forall_inv C))|exact (IH (Forall_inv_tail C))].
Qed.
Definition comes_back {A} (t : ty) (to : A -> res value) (of : ty -> value -> res A) (gs : list A) : Prop :=
  forall vs, Forall2 (fun g v => to g = Ok v) gs vs -> Forall (fun v => representable v = true) vs -> fits t vs ->
  exists bs, ser t vs = Ok bs /\ forall rest, exists ws, deser t (lenN vs) (bs ++ rest) = Ok (ws, rest) /\
    Forall2 (fun w g => of t w = Ok g) ws gs.
Theorem C65_through_a_column : forall gs ls ps ms,
  comes_back TPoint point_to_sql point_from_sql gs /\
  comes_back TRing line_to_sql line_from_sql ls /\
  (Forall polygon_closed ps -> comes_back TPolygon polygon_to_sql polygon_from_sql ps) /\
  (Forall (Forall polygon_closed) ms -> comes_back TMultiPolygon multi_to_sql multi_from_sql ms).
Proof.
  assert (Q : forall A (gs : list A), Forall (fun _ => True) gs) by (intros A gs; induction gs; constructor; auto).
  intros gs ls ps ms. repeat split.
  - intros vs T R F. apply (through_a_column TPoint point_to_sql point_from_sql (fun _ => True)); auto.
    + intros g v H P. unfold point_to_sql in H. injection H as <-. unfold sendable. now rewrite P.
    + intros g v H _. unfold point_to_sql in H. injection H as <-. destruct g; reflexivity.
  - intros vs T R F. apply (through_a_column TRing line_to_sql line_from_sql (fun _ => True)); auto.
    + intros g v H P. unfold line_to_sql in H. injection H as <-. unfold sendable. now rewrite P.
    + intros g v H _. unfold line_to_sql in H. injection H as <-. cbn. f_equal. apply C65_points_and_lines.
  - intros C vs T R F. apply (through_a_column TPolygon polygon_to_sql polygon_from_sql polygon_closed); auto.
    + intros g v H P. unfold polygon_to_sql in H. injection H as <-. unfold sendable. now rewrite P.
    + intros g v H K. unfold polygon_to_sql in H. injection H as <-. cbn [normal polygon_from_sql]. f_equal. now apply C65_polygon_roundtrip.
  - intros C vs T R F. apply (through_a_column TMultiPolygon multi_to_sql multi_from_sql (Forall polygon_closed)); auto.
    + intros g v H P. unfold multi_to_sql in H. injection H as <-. unfold sendable. now rewrite P.
    + intros g v H K. unfold multi_to_sql in H. injection H as <-. cbn [normal multi_from_sql]. f_equal. now apply C65_multi_polygon_roundtrip.
Qed.

(** Finding: a ring that begins with NaN is never closed: it grows by a point each time it is converted. *)
Theorem C65_nan_never_closed_refuted : forall e i p m, e = p :: m -> f64_nan (fst p) = true ->
  exterior (polygon_new e i) = e ++ [p] /\ geo_of_polygon (polygon_of_geo (polygon_new e i)) <> polygon_new e i.
Proof.
  assert (K : forall (x y : point), f64_nan (fst x) = true -> point_eqb x y = false).
  { intros x y H. unfold point_eqb, f64_eqb. now rewrite H. }
  assert (A : forall e p m, e = p :: m -> f64_nan (fst p) = true -> close e = e ++ [p]).
  { intros e p m -> N. unfold close, is_closed. now rewrite K. }
  intros e i p m E N. split; [exact (A e p m E N)|]. rewrite polygon_there_and_back. intros H.
  apply (f_equal exterior) in H. cbn [exterior polygon_new] in H. rewrite (A e p m E N) in H.
  rewrite (A (e ++ [p]) p (m ++ [p])) in H; [|rewrite E; reflexivity|exact N].
  apply (f_equal (@length _)) in H. rewrite !app_length in H. cbn in H. lia.
Qed.

Example C65_nonvacuous :
  let e := [(1, 2); (3, 4); (5, 6)] in
  starts_with_number e /\ exterior (polygon_new e [[(7, 7)]]) = [(1, 2); (3, 4); (5, 6); (1, 2)] /\
  multi_to_sql [polygon_new e []] = Ok (VMultiPolygon [[[(1, 2); (3, 4); (5, 6); (1, 2)]]]) /\
  representable (VMultiPolygon [[[(1, 2); (3, 4); (5, 6); (1, 2)]]]) = true /\
  multi_from_sql TMultiPolygon (VMultiPolygon [[[(1, 2); (3, 4)]]; []]) = Ok [polygon_new [(1, 2); (3, 4)] []; polygon_new [] []] /\
  multi_from_sql TRing VNull = Err EDeser.
Proof. cbv zeta. split; [intros p m E; injection E as <- _; split; reflexivity|]. vm_compute. repeat split. Qed.
Example C65_column_nonvacuous : fits TMultiPolygon [VMultiPolygon [[[(1, 2); (3, 4); (5, 6); (1, 2)]]]] /\ fits TPoint [VPoint (1, 2)] /\ fits TRing [VRing [(1, 2); (3, 4)]] /\ fits TPolygon [VPolygon [[(1, 2); (3, 4); (1, 2)]; []]].
Proof. vm_compute. repeat (split || constructor || discriminate). Qed.

Print Assumptions C65_points_and_lines.
Print Assumptions C65_polygon_roundtrip.
Print Assumptions C65_new_polygons_are_closed.
Print Assumptions C65_multi_polygon_roundtrip.
Print Assumptions C65_read_polygon_is_closed.
Print Assumptions C65_ring_as_polygon.
Print Assumptions C65_sent.
Print Assumptions C65_received.
Print Assumptions C65_through_a_column.
Print Assumptions C65_nan_never_closed_refuted.
