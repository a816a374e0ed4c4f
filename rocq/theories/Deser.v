(** Model of klickhouse/src/types/deserialize/ and of the reader half of types/mod.rs. *)
From Verif Require Import Base Io Types Ser.

(** [for _ in 0..n { out.push(f(reader)?) }] *)
Fixpoint read_n {A} (n : nat) (f : rd A) : rd (list A) :=
  match n with
  | O => rret []
  | S k => x <~ f ;;; xs <~ read_n k f ;;; rret (x :: xs)
  end.

(** types/mod.rs 676-680: the size guard at the head of [deserialize_column]. *)
Definition check_rows {A} (rows : N) (r : rd A) : rd A :=
  if MAX_STRING_SIZE <? rows then rerr EProtocol else r.

Definition read_signed (w : iw) : rd Z := n <~ read_le (ibytes w) ;;; rret (u2s (ibits w) n).
(** deserialize/sized.rs 30-35: 32 bytes reversed. *)
Definition read_256 : rd (list N) := bs <~ read_exact 32 ;;; rret (rev bs).

(** deserialize/sized.rs 24-78: one value of a fixed-width type. *)
Definition dec_sized (t : ty) : rd value :=
  match t with
  | TInt w => x <~ read_signed w ;;; rret (VInt w x)
  | TInt256 => x <~ read_256 ;;; rret (VInt256 x)
  | TUInt w => x <~ read_le (ibytes w) ;;; rret (VUInt w x)
  | TUInt256 => x <~ read_256 ;;; rret (VUInt256 x)
  | TFloat32 => x <~ read_le 4 ;;; rret (VFloat32 x)
  | TFloat64 => x <~ read_le 8 ;;; rret (VFloat64 x)
  | TBFloat16 => x <~ read_le 2 ;;; rret (VBFloat16 x)
  | TDecimal32 s => x <~ read_signed I32 ;;; rret (VDecimal32 s x)
  | TDecimal64 s => x <~ read_signed I64 ;;; rret (VDecimal64 s x)
  | TDecimal128 s => x <~ read_signed I128 ;;; rret (VDecimal128 s x)
  | TDecimal256 s => x <~ read_256 ;;; rret (VDecimal256 s x)
  | TUuid => n1 <~ read_le 8 ;;; n2 <~ read_le 8 ;;; rret (VUuid (N.lor (N.shiftl n1 64) n2))
  | TDate => x <~ read_le 2 ;;; rret (VDate x)
  | TDateTime z => x <~ read_le 4 ;;; rret (VDateTime z x)
  | TIpv4 => x <~ read_le 4 ;;; rret (VIpv4 x)
  | TIpv6 => x <~ read_exact 16 ;;; rret (VIpv6 x)
  | TDateTime64 p z => x <~ read_le 8 ;;; rret (VDateTime64 z x p)
  | TEnum8 _ => x <~ read_signed I8 ;;; rret (VEnum8 x)
  | TEnum16 _ => x <~ read_signed I16 ;;; rret (VEnum16 x)
  | _ => rpanic
  end.
Definition deser_sized (t : ty) (rows : N) : rd (list value) := read_n (N.to_nat rows) (dec_sized t).

(** deserialize/string.rs 31-32: cut at the first NUL. *)
Fixpoint until_nul (l : list N) : list N :=
  match l with [] => [] | b :: t => if b =? 0 then [] else b :: until_nul t end.

(** The largest number of bytes a [Vec] may have ([isize::MAX]); [Vec::with_capacity] panics beyond. *)
Definition ISIZE_MAX : N := 2 ^ 63 - 1.

(** deserialize/string.rs 11-39; line 28 [Vec::with_capacity( *n)] *)
Definition dec_string (t : ty) : rd value :=
  match t with
  | TFixedString n => if ISIZE_MAX <? n then rpanic else bs <~ read_exact n ;;; rret (VString (until_nul bs))
  | _ => bs <~ read_string ;;; rret (VString bs)
  end.
Definition deser_string (t : ty) (rows : N) : rd (list value) := read_n (N.to_nat rows) (dec_string t).

(** deserialize/array.rs 61-68.  [offset - read_offset] on [u64]: with overflow checks
    a decreasing offset panics. *)
Fixpoint split_offsets {A} (prev : N) (offs : list N) (items : list A) : res (list (list A)) :=
  match offs with
  | [] => Ok []
  | o :: t =>
      if o <? prev then Panic
      else r <- split_offsets o t (dropN (o - prev) items) ;; Ok (takeN (o - prev) items :: r)
  end.

(** deserialize/array.rs 43-71, generic over [inner_value]/[item_mapping]. *)
Definition deser_array_generic {A} (inner : N -> rd (list value))
    (item_mapping : value -> res A) (inner_value : list A -> value) (rows : N) : rd (list value) :=
  if rows =? 0 then rret [] else
  offs <~ read_n (N.to_nat rows) (read_le 8) ;;;
  items <~ inner (last offs 0) ;;;
  fun inp =>
    items' <- mapM item_mapping items ;;
    out <- split_offsets 0 offs items' ;;
    Ok (map inner_value out, inp).

(** deserialize/geo.rs 20-48 *)
Definition deser_float64 (rows : N) : rd (list value) := check_rows rows (deser_sized TFloat64 rows).
Definition unwrap_float (v : value) : res N := match v with VFloat64 x => Ok x | _ => Panic end.
(** [points[row].0[col] = value]; columns have exactly [rows] entries. *)
Definition deser_point (rows : N) : rd (list value) :=
  check_rows rows (
    xs <~ deser_float64 rows ;;;
    ys <~ deser_float64 rows ;;;
    fun inp =>
      xs' <- mapM unwrap_float xs ;;
      ys' <- mapM unwrap_float ys ;;
      Ok (map VPoint (combine xs' ys'), inp)).

(** deserialize/geo.rs 49-74 [array_deser!] *)
Definition as_point (v : value) : res point := match v with VPoint p => Ok p | _ => Panic end.
Definition as_ring (v : value) : res ring := match v with VRing p => Ok p | _ => Panic end.
Definition as_polygon (v : value) : res polygon := match v with VPolygon p => Ok p | _ => Panic end.
Definition deser_ring (rows : N) : rd (list value) :=
  check_rows rows (deser_array_generic deser_point as_point VRing rows).
Definition deser_polygon (rows : N) : rd (list value) :=
  check_rows rows (deser_array_generic deser_ring as_ring VPolygon rows).
Definition deser_multipolygon (rows : N) : rd (list value) :=
  check_rows rows (deser_array_generic deser_polygon as_polygon VMultiPolygon rows).

(** deserialize/nullable.rs 39-43: [out[i] = Null] where the mask is non-zero. *)
Fixpoint apply_mask (mask : list N) (out : list value) : res (list value) :=
  match mask, out with
  | [], _ => Ok out
  | m :: mask', v :: out' => r <- apply_mask mask' out' ;; Ok ((if m =? 0 then v else VNull) :: r)
  | _ :: _, [] => if forallb (fun m => m =? 0) mask then Ok [] else Panic
  end.

(** deserialize/map.rs 63-79: hand out keys and values up to each offset;
    [next().unwrap()] panics when they run out. *)
Fixpoint split_map (last_offset : N) (offs : list N) (ks vs : list value) : res (list value) :=
  match offs with
  | [] => Ok []
  | o :: t =>
      let n := o - last_offset in   (* truncated: no iteration if o <= last_offset *)
      if (lenN ks <? n) || (lenN vs <? n) then Panic
      else r <- split_map (N.max last_offset o) t (dropN n ks) (dropN n vs) ;;
           Ok (VMap (takeN n ks) (takeN n vs) :: r)
  end.

(** deserialize/tuple.rs 35-46: push the i-th value of a column onto the i-th tuple. *)
Fixpoint push_column (tuples : list (list value)) (col : list value) : res (list (list value)) :=
  match tuples, col with
  | _, [] => Ok tuples
  | [], _ :: _ => Panic
  | t :: ts, v :: col' => r <- push_column ts col' ;; Ok ((t ++ [v]) :: r)
  end.

(* ---------------- LowCardinality ---------------- *)

Fixpoint nthN {A} (l : list A) (n : N) {struct l} : option A :=
  match l with [] => None | x :: t => if n =? 0 then Some x else nthN t (N.pred n) end.

Definition get_or_illegal (keys : list value) (i : N) : res value :=
  match nthN keys i with Some v => Ok v | None => Err EDeser end.

(** deserialize/low_cardinality.rs 111-174: one index looked up.  [None]: neither flag
    set, the entry is dropped. *)
Definition lc_lookup (needs_global has_additional nullable : bool)
    (gd ad : option (list value)) (entry : N) : res (list value) :=
  match has_additional, needs_global with
  | true, false =>
      match ad with
      | None => Err EDeser
      | Some ad => if nullable && (entry =? 0) then Ok [VNull]
                   else v <- get_or_illegal ad entry ;; Ok [v]
      end
  | false, true =>
      match gd with
      | None => Err EDeser
      | Some gd => v <- get_or_illegal gd entry ;; Ok [v]
      end
  | true, true =>
      match ad, gd with
      | Some ad, Some gd =>
          if nullable && (entry =? 0) then Ok [VNull]
          else if entry <? lenN ad then v <- get_or_illegal ad entry ;; Ok [v]
          else v <- get_or_illegal gd (entry - lenN ad) ;; Ok [v]
      | _, _ => Err EDeser
      end
  | false, false => Ok []
  end.

Definition index_width (flags : N) : option iw :=
  let x := N.land flags 255 in
  if x =? TUINT8 then Some I8 else if x =? TUINT16 then Some I16
  else if x =? TUINT32 then Some I32 else if x =? TUINT64 then Some I64 else None.

(** The loop variables of deserialize/low_cardinality.rs 34-46. *)
Record lc_state := {
  num_pending : N;
  indexed : iw;
  gdict : option (list value);
  adict : option (list value);
  needs_global : bool;
  has_additional : bool }.
Definition lc_init : lc_state :=
  {| num_pending := 0; indexed := I8; gdict := None; adict := None;
     needs_global := false; has_additional := false |}.

Definition has_bit (flags bit : N) : bool := negb (N.land flags bit =? 0).

(** low_cardinality.rs 49-100: the block header, read when no rows are pending. *)
Definition lc_header (inner : N -> rd (list value)) (st : lc_state) : rd lc_state :=
  flags <~ read_le 8 ;;;
  let has_a := has_bit flags HAS_ADDITIONAL_KEYS_BIT in
  let needs_g := has_bit flags NEED_GLOBAL_DICTIONARY_BIT in
  let needs_u := has_bit flags NEED_UPDATE_DICTIONARY_BIT in
  match index_width flags with
  | None => rerr EDeser
  | Some it =>
      gd <~ (if needs_g && ((match gdict st with None => true | Some _ => false end) || needs_u)
             then n <~ read_le 8 ;;; d <~ inner n ;;; rret (Some d)
             else rret (gdict st)) ;;;
      ad <~ (if has_a then n <~ read_le 8 ;;; d <~ inner n ;;; rret (Some d)
             else rret (adict st)) ;;;
      pend <~ read_le 8 ;;;
      rret {| num_pending := pend; indexed := it; gdict := gd; adict := ad;
              needs_global := needs_g; has_additional := has_a |}
  end.

(** low_cardinality.rs 48-177: the loop [while limit > 0].  [fuel] bounds the number of
    iterations; DeserProofs.v shows that one more than the input length always suffices. *)
Fixpoint lc_loop (fuel : nat) (inner : N -> rd (list value)) (nullable : bool)
    (limit : N) (st : lc_state) (out : list value) (inp : list N) {struct fuel} : res (list value * list N) :=
  if limit =? 0 then Ok (out, inp) else
  match fuel with
  | O => Err EFuel
  | S fuel' =>
      '(st, inp) <- (if num_pending st =? 0 then lc_header inner st inp else Ok (st, inp)) ;;
      let reading := N.min limit (num_pending st) in
      '(entries, inp) <- check_rows reading (read_n (N.to_nat reading) (read_le (ibytes (indexed st)))) inp ;;
      vals <- mapM (lc_lookup (needs_global st) (has_additional st) nullable (gdict st) (adict st)) entries ;;
      lc_loop fuel' inner nullable (limit - reading)
        {| num_pending := num_pending st - reading; indexed := indexed st; gdict := gdict st;
           adict := adict st; needs_global := needs_global st; has_additional := has_additional st |}
        (out ++ concat vals) inp
  end.

Definition deser_low_card (nullable : bool) (inner : N -> rd (list value)) (rows : N) : rd (list value) :=
  fun inp => lc_loop (S (length inp)) inner nullable rows lc_init [] inp.

(* ---------------- dispatch ---------------- *)

(** types/mod.rs 667-736 [deserialize_column], dispatching to deserialize/sized.rs, string.rs, array.rs 43-71, geo.rs,
    nullable.rs 24-43 (the mask, then the inner column), map.rs 43-82 (the offsets, then keys and values up to the last
    one), tuple.rs 25-46 (one inner column after the other) and low_cardinality.rs 34-184. *)
Fixpoint deser (t : ty) (rows : N) {struct t} : rd (list value) :=
  check_rows rows
  match t with
  | TString | TFixedString _ => deser_string t rows
  | TArray t' => deser_array_generic (deser t') Ok VArray rows
  | TRing => deser_ring rows
  | TPolygon => deser_polygon rows
  | TMultiPolygon => deser_multipolygon rows
  | TTuple ts =>
      tuples <~ (fix go (ts : list ty) (tuples : list (list value)) : rd (list (list value)) :=
         match ts with
         | [] => rret tuples
         | t1 :: ts' =>
             col <~ deser t1 rows ;;;
             fun inp => tuples' <- push_column tuples col ;; go ts' tuples' inp
         end) ts (repeat [] (N.to_nat rows)) ;;;
      rret (map VTuple tuples)
  | TPoint => deser_point rows
  | TNullable t' =>
      mask <~ read_exact rows ;;;
      out <~ deser t' rows ;;;
      fun inp => r <- apply_mask mask out ;; Ok (r, inp)
  | TMap k v =>
      if rows =? 0 then rret [] else
      offs <~ read_n (N.to_nat rows) (read_le 8) ;;;
      let total := last offs 0 in
      ks <~ deser k total ;;;
      if negb (lenN ks =? total) then rpanic else
      vs <~ deser v total ;;;
      if negb (lenN vs =? total) then rpanic else
      fun inp => r <- split_map 0 offs ks vs ;; Ok (r, inp)
  | TLowCard inner =>
      match inner with
      | TNullable x => deser_low_card true (deser x) rows
      | _ => deser_low_card false (deser inner) rows
      end
  | _ => deser_sized t rows
  end.

(** types/mod.rs 598-665 [deserialize_prefix]; unlike the writer, deserialize/nullable.rs
    10-22 recurses into the inner type. *)
Fixpoint deser_prefix (t : ty) : rd unit :=
  match t with
  | TArray t' => deser_prefix t'
  | TTuple ts =>
      (fix go (ts : list ty) : rd unit :=
         match ts with [] => rret tt | t1 :: ts' => _ <~ deser_prefix t1 ;;; go ts' end) ts
  | TNullable t' => deser_prefix t'
  | TMap k v => _ <~ deser_prefix k ;;; _ <~ deser_prefix v ;;; rret tt
  | TLowCard _ =>
      version <~ read_le 8 ;;;
      if version =? LOW_CARDINALITY_VERSION then rret tt else rerr EDeser
  | _ => rret tt
  end.
