(** Model of the conversions between the geo types and the crate [geo_types] (0.7):
    klickhouse/src/values/geo.rs 73-203 (feature "geo-types").  A [geo_types::Coord] and a [Point]
    are both the bit patterns of x and y. *)
From Verif Require Import Base Types.

(** [geo_types::LineString]: a list of coordinates.  [LineString::close]: if the first and the last
    coordinate differ (as floats), the first is appended; an empty line is closed. *)
Definition is_closed (l : list point) : bool :=
  match l with [] => true | p :: _ => point_eqb p (last l p) end.
Definition close (l : list point) : list point :=
  match l with [] => [] | p :: _ => if is_closed l then l else l ++ [p] end.
(** [geo_types::Polygon], its private fields, and [Polygon::new], which closes every ring. *)
Record geo_polygon := { exterior : list point; interiors : list (list point) }.
Definition polygon_new (e : list point) (i : list (list point)) : geo_polygon :=
  {| exterior := close e; interiors := map close i |}.

(** geo.rs 97-124 [From] between [Point], [Coord] and [geo_types::Point]. *)
Definition geo_of_point (p : point) : point := (fst p, snd p).
Definition point_of_geo (p : point) : point := (fst p, snd p).
(** geo.rs 126-136: [Ring] and [LineString]. *)
Definition geo_of_ring (r : ring) : list point := map geo_of_point r.
Definition ring_of_geo (l : list point) : ring := map point_of_geo l.
(** geo.rs 140-144: [From<Ring> for geo_types::Polygon]. *)
Definition geo_polygon_of_ring (r : ring) : geo_polygon := polygon_new (map geo_of_point r) [].
(** geo.rs 146-159 [From<geo_types::Polygon> for Polygon] *)
Definition polygon_of_geo (g : geo_polygon) : polygon := ring_of_geo (exterior g) :: map ring_of_geo (interiors g).
(** geo.rs 160-175 [From<Polygon> for geo_types::Polygon] *)
Definition geo_of_polygon (p : polygon) : geo_polygon :=
  match p with [] => polygon_new [] [] | e :: r => polygon_new (geo_of_ring e) (map geo_of_ring r) end.
(** geo.rs 178-187: multi polygons. *)
Definition geo_of_multi (m : multipolygon) : list geo_polygon := map geo_of_polygon m.
Definition multi_of_geo (g : list geo_polygon) : multipolygon := map polygon_of_geo g.

(** geo.rs 76-95 [to_from_sql!]: an SQL value and back; any other type is an error, any other value
    of the right type [unimplemented!()]. *)
Definition multi_to_sql (g : list geo_polygon) : res value := Ok (VMultiPolygon (multi_of_geo g)).
Definition multi_from_sql (t : ty) (v : value) : res (list geo_polygon) :=
  match t with
  | TMultiPolygon => match v with VMultiPolygon m => Ok (geo_of_multi m) | _ => Panic end
  | _ => Err EDeser
  end.
Definition polygon_to_sql (g : geo_polygon) : res value := Ok (VPolygon (polygon_of_geo g)).
Definition polygon_from_sql (t : ty) (v : value) : res geo_polygon :=
  match t with
  | TPolygon => match v with VPolygon m => Ok (geo_of_polygon m) | _ => Panic end
  | _ => Err EDeser
  end.
Definition line_to_sql (g : list point) : res value := Ok (VRing (ring_of_geo g)).
Definition line_from_sql (t : ty) (v : value) : res (list point) :=
  match t with
  | TRing => match v with VRing m => Ok (geo_of_ring m) | _ => Panic end
  | _ => Err EDeser
  end.
Definition point_to_sql (g : point) : res value := Ok (VPoint (point_of_geo g)).
Definition point_from_sql (t : ty) (v : value) : res point :=
  match t with
  | TPoint => match v with VPoint m => Ok (geo_of_point m) | _ => Panic end
  | _ => Err EDeser
  end.
