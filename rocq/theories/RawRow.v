(** Model of [RawRow] (convert/raw_row.rs) and of type inference for values
    (values/mod.rs [guess_type]). *)
From Verif Require Import Base Types Text.

(** values/mod.rs 261-306 [guess_type]; enums are [unimplemented!()]. *)
Fixpoint guess_type (v : value) : res ty :=
  let first := fun l => match l with [] => Ok TString | x :: _ => guess_type x end in
  match v with
  | VInt w _ => Ok (TInt w) | VInt256 _ => Ok TInt256
  | VUInt w _ => Ok (TUInt w) | VUInt256 _ => Ok TUInt256
  | VFloat32 _ => Ok TFloat32 | VFloat64 _ => Ok TFloat64 | VBFloat16 _ => Ok TBFloat16
  | VDecimal32 p _ => Ok (TDecimal32 p) | VDecimal64 p _ => Ok (TDecimal64 p)
  | VDecimal128 p _ => Ok (TDecimal128 p) | VDecimal256 p _ => Ok (TDecimal256 p)
  | VString _ => Ok TString | VUuid _ => Ok TUuid
  | VDate _ => Ok TDate | VDateTime z _ => Ok (TDateTime z) | VDateTime64 z _ p => Ok (TDateTime64 p z)
  | VEnum8 _ | VEnum16 _ => Panic
  | VArray l => t <- first l ;; Ok (TArray t)
  | VTuple l => ts <- (fix go l := match l with [] => Ok [] | x :: r => t <- guess_type x ;; ts <- go r ;; Ok (t :: ts) end) l ;; Ok (TTuple ts)
  | VNull => Ok (TNullable TString)
  | VMap k v => a <- first k ;; b <- first v ;; Ok (TMap a b)
  | VIpv4 _ => Ok TIpv4 | VIpv6 _ => Ok TIpv6
  | VPoint _ => Ok TPoint | VRing _ => Ok TRing | VPolygon _ => Ok TPolygon | VMultiPolygon _ => Ok TMultiPolygon
  end.

(** convert/raw_row.rs 8: [Vec<Option<(String, Type, Value)>>] *)
Notation cell := (option (text * ty * value)) (only parsing).
Notation raw_row := (list (option (text * ty * value))) (only parsing).

(** The name a position is compared with: [unwrap_or("")] for a taken one (78-80, 109-113). *)
Definition cell_name (c : cell) : text := match c with Some (n, _, _) => n | None => [] end.

(** convert/raw_row.rs 16-22 *)
Definition rr_deserialize (m : list (text * ty * value)) : raw_row := map Some m.
(** convert/raw_row.rs 24-34: a taken cell fails the [expect]. *)
Fixpoint rr_serialize (r : raw_row) : res (list (text * value)) :=
  match r with
  | [] => Ok []
  | None :: _ => Panic
  | Some (n, _, v) :: r' => t <- rr_serialize r' ;; Ok ((n, v) :: t)
  end.

(** A column can be named by position or by name: [RowIndex] (37-60). *)
Inductive row_index := ByIndex (i : nat) | ByName (n : text).

(** [Iterator::position] *)
Fixpoint position (n : text) (l : list text) : option nat :=
  match l with [] => None | x :: r => if text_eqb x n then Some O else option_map S (position n r) end.

(** convert/raw_row.rs 41-60; the test for positions is [count >= self]. *)
Definition find_index (ix : row_index) (names : list text) : option nat :=
  match ix with
  | ByIndex i => if Nat.leb i (length names) then Some i else None
  | ByName n => position n names
  end.

Fixpoint set_nth {A} (i : nat) (a : A) (l : list A) : list A :=
  match l, i with
  | [], _ => []
  | _ :: r, O => a :: r
  | x :: r, S j => x :: set_nth j a r
  end.

(** convert/raw_row.rs 74-89 [try_get], up to the conversion: the row afterwards and the cell
    taken from it. *)
Definition rr_take (ix : row_index) (r : raw_row) : raw_row * res (ty * value) :=
  match find_index ix (map cell_name r) with
  | None => (r, Err EOutOfBounds)
  | Some i =>
      match nth_error r i with
      | None => (r, Panic)                       (* get_mut(index).unwrap() *)
      | Some None => (r, Err EDoubleFetch)
      | Some (Some (_, t, v)) => (set_nth i None r, Ok (t, v))
      end
  end.
(** convert/raw_row.rs 74-89 with the conversion [T::from_sql]. *)
Definition rr_try_get {T} (from_sql : ty -> value -> res T) (ix : row_index) (r : raw_row) : raw_row * res T :=
  let (r', got) := rr_take ix r in (r', tv <- got ;; from_sql (fst tv) (snd tv)).
(** convert/raw_row.rs 95-97 [get] *)
Definition rr_get {T} (from_sql : ty -> value -> res T) (ix : row_index) (r : raw_row) : raw_row * res T :=
  let (r', got) := rr_try_get from_sql ix r in (r', match got with Ok x => Ok x | _ => Panic end).

(** convert/raw_row.rs 100-124 [try_set_typed]; [to_sql] is the conversion of the given value
    under the given type. *)
Definition rr_set (name : text) (t : option ty) (to_sql : option ty -> res value) (r : raw_row) : raw_row * res unit :=
  match to_sql t with
  | Ok v =>
      match (match t with Some t => Ok t | None => guess_type v end) with
      | Ok t =>
          match position name (map cell_name r) with
          | Some i =>
              match nth_error r i with
              | Some (Some (n, _, _)) => (set_nth i (Some (n, t, v)) r, Ok tt)
              | _ => (r, Panic)                  (* as_mut().unwrap() on a taken cell *)
              end
          | None => (r ++ [Some (name, t, v)], Ok tt)
          end
      | Err e => (r, Err e)
      | Panic => (r, Panic)
      end
  | Err e => (r, Err e)
  | Panic => (r, Panic)
  end.

(** A program using a row. *)
Inductive row_op :=
| OpGet (ix : row_index) (conv : ty -> value -> res value)
| OpSet (name : text) (t : option ty) (conv : option ty -> res value).
Inductive row_res := RGet (r : res value) | RSet (r : res unit).
Definition rr_op (o : row_op) (r : raw_row) : raw_row * row_res :=
  match o with
  | OpGet ix c => let (r', x) := rr_try_get c ix r in (r', RGet x)
  | OpSet n t c => let (r', x) := rr_set n t c r in (r', RSet x)
  end.
Fixpoint rr_run (ops : list row_op) (r : raw_row) : raw_row * list row_res :=
  match ops with
  | [] => (r, [])
  | o :: ops => let (r', x) := rr_op o r in let (r'', xs) := rr_run ops r' in (r'', x :: xs)
  end.
