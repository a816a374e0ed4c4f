(** The ClickHouse Native column format, as a relation between columns and byte strings.
    It is written from the format, not from the library: it uses none of the model's
    readers or writers, and it allows everything a server may choose freely (dictionary
    order, index width, several dictionary blocks, placeholders under NULLs).
    [lim] bounds the rows of every column reached, every dictionary and every string. *)
From Verif Require Import Base Types ColumnSpec.

(** The number a little-endian byte string stands for. *)
Fixpoint number (bs : list N) : N :=
  match bs with [] => 0 | b :: r => b + 256 * number r end.
(** [bs] is the [n]-byte little-endian form of [x]. *)
Definition word (n x : N) (bs : list N) : Prop :=
  lenN bs = n /\ Forall (fun b => b < 256) bs /\ number bs = x.
Definition words (n : N) (xs : list N) (bs : list N) : Prop :=
  exists parts, Forall2 (word n) xs parts /\ bs = concat parts.

(** Two's complement of [bits] bits. *)
Definition twos (bits : N) (x : Z) : N :=
  Z.to_N (if (x <? 0)%Z then x + Z.of_N (2 ^ bits) else x).

(** One value of a fixed-width type. *)
Definition scalar_wire (t : ty) (v : value) (bs : list N) : Prop :=
  same_scalar t v = true /\ representable v = true /\
  match v with
  | VInt w x => word (iw_width w) (twos (8 * iw_width w) x) bs
  | VUInt w x => word (iw_width w) x bs
  | VInt256 be | VUInt256 be | VDecimal256 _ be => bs = rev be
  | VFloat32 x | VIpv4 x | VDateTime _ x => word 4 x bs
  | VFloat64 x | VDateTime64 _ x _ => word 8 x bs
  | VBFloat16 x | VDate x => word 2 x bs
  | VDecimal32 _ x => word 4 (twos 32 x) bs
  | VDecimal64 _ x => word 8 (twos 64 x) bs
  | VDecimal128 _ x => word 16 (twos 128 x) bs
  | VEnum8 x => word 1 (twos 8 x) bs
  | VEnum16 x => word 2 (twos 16 x) bs
  | VUuid n => exists hi lo, word 8 (n / 2 ^ 64) hi /\ word 8 (n mod 2 ^ 64) lo /\ bs = hi ++ lo
  | VIpv6 o => bs = o
  | _ => False
  end.

(** A string: its length as a LEB128 varint of at most nine octets, then its bytes. *)
Definition string_wire (lim : N) (v : value) (bs : list N) : Prop :=
  exists s, v = VString s /\ lenN s <= lim /\ Forall (fun b => b < 256) s /\ bs = leb128 9 (lenN s) ++ s.
(** A FixedString: [n] bytes, as many as a Rust vector may have; trailing NULs are padding (the
    library ends the string at the first one). *)
Definition fixed_wire (n : N) (v : value) (bs : list N) : Prop :=
  lenN bs = n /\ n < 2 ^ 63 /\ Forall (fun b => b < 256) bs /\ v = VString (cut_nul bs).

(** Running totals of the lengths: the "offsets" of an array column. *)
Fixpoint running (total : N) (lens : list N) : list N :=
  match lens with [] => [] | n :: r => (total + n) :: running (total + n) r end.

(** Row [i] of a tuple column is the tuple of the [i]-th entries of its columns. *)
Definition tuples_of (n : nat) (cols : list (list value)) : list value :=
  map (fun i => VTuple (map (fun c => nth i c VNull) cols)) (seq 0 n).

(** A NULL map: one byte per row, non-zero for NULL; what is stored there instead is free. *)
Definition null_entry (m : N) (stored v : value) : Prop :=
  m < 256 /\ ((m <> 0 /\ v = VNull) \/ (m = 0 /\ v = stored)).
Inductive null_rows : list N -> list value -> list value -> Prop :=
| null_nil : null_rows [] [] []
| null_cons m s v ms ss vs : null_entry m s v -> null_rows ms ss vs -> null_rows (m :: ms) (s :: ss) (v :: vs).

(** LowCardinality: index width codes, and what an index means. *)
Definition width_code (code w : N) : Prop :=
  (code = 0 /\ w = 1) \/ (code = 1 /\ w = 2) \/ (code = 2 /\ w = 4) \/ (code = 3 /\ w = 8).
Definition dict_entry (nullable : bool) (keys : list value) (i : N) (v : value) : Prop :=
  if nullable && (i =? 0) then v = VNull else nth_error keys (N.to_nat i) = Some v.

Inductive encodes (lim : N) : ty -> list value -> list N -> Prop :=
| enc_scalar t vs parts : lenN vs <= lim ->
    Forall2 (scalar_wire t) vs parts -> width t <> None -> encodes lim t vs (concat parts)
| enc_str vs parts : lenN vs <= lim ->
    Forall2 (string_wire lim) vs parts -> encodes lim TString vs (concat parts)
| enc_fixed n vs parts : lenN vs <= lim ->
    Forall2 (fixed_wire n) vs parts -> encodes lim (TFixedString n) vs (concat parts)
| enc_arr t rows offs items : lenN rows <= lim ->
    words 8 (running 0 (map lenN rows)) offs -> encodes lim t (concat rows) items ->
    encodes lim (TArray t) (map VArray rows) (offs ++ items)
| enc_map k t rows offs kbs vbs : lenN rows <= lim ->
    Forall (fun r => lenN (fst r) = lenN (snd r)) rows ->
    words 8 (running 0 (map (fun r => lenN (fst r)) rows)) offs ->
    encodes lim k (concat (map fst rows)) kbs -> encodes lim t (concat (map snd rows)) vbs ->
    encodes lim (TMap k t) (map (fun r => VMap (fst r) (snd r)) rows) (offs ++ kbs ++ vbs)
| enc_tup ts n cols bs : N.of_nat n <= lim ->
    Forall (fun c => length c = n) cols -> encodes_columns lim ts cols bs ->
    encodes lim (TTuple ts) (tuples_of n cols) bs
| enc_nul t mask stored vs bs : null_rows mask stored vs ->
    encodes lim t stored bs -> encodes lim (TNullable t) vs (mask ++ bs)
| enc_pt ps xs ys : lenN ps <= lim ->
    words 8 (map fst ps) xs -> words 8 (map snd ps) ys -> encodes lim TPoint (map VPoint ps) (xs ++ ys)
| enc_rng rows offs items : lenN rows <= lim ->
    words 8 (running 0 (map lenN rows)) offs -> encodes lim TPoint (map VPoint (concat rows)) items ->
    encodes lim TRing (map VRing rows) (offs ++ items)
| enc_poly rows offs items : lenN rows <= lim ->
    words 8 (running 0 (map lenN rows)) offs -> encodes lim TRing (map VRing (concat rows)) items ->
    encodes lim TPolygon (map VPolygon rows) (offs ++ items)
| enc_mpoly rows offs items : lenN rows <= lim ->
    words 8 (running 0 (map lenN rows)) offs -> encodes lim TPolygon (map VPolygon (concat rows)) items ->
    encodes lim TMultiPolygon (map VMultiPolygon rows) (offs ++ items)
| enc_low t vs bs : lenN vs <= lim -> dictionaries lim t vs bs -> encodes lim (TLowCard t) vs bs
with encodes_columns (lim : N) : list ty -> list (list value) -> list N -> Prop :=
| cols_nil : encodes_columns lim [] [] []
| cols_cons t ts c cols b bs : encodes lim t c b -> encodes_columns lim ts cols bs ->
    encodes_columns lim (t :: ts) (c :: cols) (b ++ bs)
with dictionaries (lim : N) : ty -> list value -> list N -> Prop :=
| dict_none t : dictionaries lim t [] []
| dict_more t code w (update : bool) flags keys nkeys kbs nrows idx ibs vs vs' bs' :
    width_code code w ->
    word 8 (code + 512 + (if update then 1024 else 0)) flags ->
    word 8 (lenN keys) nkeys -> encodes lim (strip_null t) keys kbs ->
    word 8 (lenN vs) nrows -> vs <> [] -> Forall2 (dict_entry (is_nullable t) keys) idx vs -> words w idx ibs ->
    dictionaries lim t vs' bs' ->
    dictionaries lim t (vs ++ vs') (flags ++ nkeys ++ kbs ++ nrows ++ ibs ++ bs').

Scheme encodes_mind := Minimality for encodes Sort Prop
  with columns_mind := Minimality for encodes_columns Sort Prop
  with dictionaries_mind := Minimality for dictionaries Sort Prop.
Combined Scheme wire_mutind from encodes_mind, columns_mind, dictionaries_mind.

(** The column prefix: one 8-byte version number 1 for every LowCardinality inside the type,
    left to right. *)
Fixpoint low_cards (t : ty) : nat :=
  match t with
  | TLowCard _ => 1
  | TArray t' | TNullable t' => low_cards t'
  | TTuple ts => fold_right (fun t n => (low_cards t + n)%nat) 0%nat ts
  | TMap k v => (low_cards k + low_cards v)%nat
  | _ => 0
  end.
Definition prefix_wire (t : ty) (bs : list N) : Prop := words 8 (repeat 1 (low_cards t)) bs.
