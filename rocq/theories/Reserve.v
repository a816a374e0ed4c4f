(** What decoding a reply reserves in advance: the sizes given to [Vec::with_capacity] and
    [vec![x; n]] while a column, a block or a compressed frame is read, in order, whether or not
    the reading succeeds.  Entries, not bytes: an entry of a column is a [Value], of a string or mask a byte.
    Vectors that grow by [push] are not listed (their size follows what has been read), nor what
    [collect] asks for (at most as many entries as the iterator still holds). *)
From Verif Require Import Base Io Types Ser Deser Text TypeText Block Compression.

(** What is reserved once a reader has succeeded. *)
Definition after {A} (r : res (A * list N)) (k : A -> list N -> list N) : list N :=
  match r with Ok (a, rest) => k a rest | _ => [] end.
(** [n] readings in a row. *)
Fixpoint each {A} (n : nat) (f : rd A) (tr : list N -> list N) (inp : list N) : list N :=
  match n with O => [] | S k => tr inp ++ after (f inp) (fun _ rest => each k f tr rest) end.
(** types/mod.rs 676-680: nothing is reserved for a column that is refused for its size. *)
Definition unless_refused (rows : N) (l : list N) : list N := if MAX_STRING_SIZE <? rows then [] else l.

(** io.rs 33-43 [read_string] *)
Definition string_reserved (inp : list N) : list N :=
  after (read_var_uint inp) (fun len _ => if MAX_STRING_SIZE <? len then [] else if len =? 0 then [] else [len]).
(** deserialize/sized.rs 22, for the coordinates of points *)
Definition float_reserved (rows : N) (inp : list N) : list N := unless_refused rows [rows].
(** deserialize/array.rs 48-62 *)
Definition array_reserved (inner : N -> rd (list value)) (tr : N -> list N -> list N) (rows : N) (inp : list N) : list N :=
  if rows =? 0 then [] else
  after (read_n (N.to_nat rows) (read_le 8) inp) (fun offs rest =>
    tr (last offs 0) rest ++ after (inner (last offs 0) rest) (fun _ _ => [rows])).
(** deserialize/geo.rs 28-34 *)
Definition point_reserved (rows : N) (inp : list N) : list N :=
  unless_refused rows ([rows] ++ float_reserved rows inp ++ after (deser_float64 rows inp) (fun _ rest => float_reserved rows rest)).
(** deserialize/geo.rs 49-74 *)
Definition ring_reserved (rows : N) (inp : list N) : list N := unless_refused rows (array_reserved deser_point point_reserved rows inp).
Definition polygon_reserved (rows : N) (inp : list N) : list N := unless_refused rows (array_reserved deser_ring ring_reserved rows inp).
Definition multipolygon_reserved (rows : N) (inp : list N) : list N := unless_refused rows (array_reserved deser_polygon polygon_reserved rows inp).

(** deserialize/low_cardinality.rs 49-100: the dictionaries. *)
Definition header_reserved (inner : N -> rd (list value)) (tr : N -> list N -> list N) (st : lc_state) (inp : list N) : list N :=
  after (read_le 8 inp) (fun flags inp =>
    let has_a := has_bit flags HAS_ADDITIONAL_KEYS_BIT in
    let needs_g := has_bit flags NEED_GLOBAL_DICTIONARY_BIT in
    let needs_u := has_bit flags NEED_UPDATE_DICTIONARY_BIT in
    let own := needs_g && ((match gdict st with None => true | Some _ => false end) || needs_u) in
    match index_width flags with
    | None => []
    | Some _ =>
        (if own then after (read_le 8 inp) tr else []) ++
        after ((if own then n <~ read_le 8 ;;; d <~ inner n ;;; rret (Some d) else rret (gdict st)) inp)
          (fun _ inp => if has_a then after (read_le 8 inp) tr else [])
    end).
(** deserialize/low_cardinality.rs 48-177: the indices are a column of their own (105-107). *)
Fixpoint lc_reserved (fuel : nat) (inner : N -> rd (list value)) (tr : N -> list N -> list N) (nullable : bool)
    (limit : N) (st : lc_state) (inp : list N) {struct fuel} : list N :=
  if limit =? 0 then [] else
  match fuel with
  | O => []
  | S fuel' =>
      (if num_pending st =? 0 then header_reserved inner tr st inp else []) ++
      after (if num_pending st =? 0 then lc_header inner st inp else Ok (st, inp)) (fun st inp =>
        let reading := N.min limit (num_pending st) in
        unless_refused reading [reading] ++
        after (check_rows reading (read_n (N.to_nat reading) (read_le (ibytes (indexed st)))) inp) (fun entries inp =>
          match mapM (lc_lookup (needs_global st) (has_additional st) nullable (gdict st) (adict st)) entries with
          | Ok _ => lc_reserved fuel' inner tr nullable (limit - reading)
              {| num_pending := num_pending st - reading; indexed := indexed st; gdict := gdict st;
                 adict := adict st; needs_global := needs_global st; has_additional := has_additional st |} inp
          | _ => []
          end))
  end.

(** types/mod.rs 667-736 [deserialize_column].  For a tuple the columns after one that has more
    values than there are rows (which panics there) are listed too. *)
Fixpoint reserved (t : ty) (rows : N) {struct t} : list N -> list N := fun inp =>
  unless_refused rows
  match t with
  | TString => [rows] ++ each (N.to_nat rows) (dec_string t) string_reserved inp         (* string.rs 19 *)
  | TFixedString n => [rows] ++ each (N.to_nat rows) (dec_string t) (fun _ => [n]) inp   (* string.rs 26-28 *)
  | TArray t' => array_reserved (deser t') (reserved t') rows inp
  | TRing => ring_reserved rows inp
  | TPolygon => polygon_reserved rows inp
  | TMultiPolygon => multipolygon_reserved rows inp
  | TTuple ts =>                                                                          (* tuple.rs 31 *)
      [lenN ts; rows] ++
      (fix go (ts : list ty) (inp : list N) : list N :=
         match ts with
         | [] => []
         | t1 :: ts' => reserved t1 rows inp ++ after (deser t1 rows inp) (fun _ rest => go ts' rest)
         end) ts inp
  | TPoint => point_reserved rows inp
  | TNullable t' => [rows] ++ after (read_exact rows inp) (fun _ rest => reserved t' rows rest)   (* nullable.rs 31 *)
  | TMap k v =>                                                                           (* map.rs 44-68 *)
      if rows =? 0 then [] else
      [rows] ++ after (read_n (N.to_nat rows) (read_le 8) inp) (fun offs rest =>
        reserved k (last offs 0) rest ++ after (deser k (last offs 0) rest) (fun ks rest =>
          if negb (lenN ks =? last offs 0) then [] else
          reserved v (last offs 0) rest ++ after (deser v (last offs 0) rest) (fun vs _ =>
            if negb (lenN vs =? last offs 0) then [] else [rows])))
  | TLowCard inner =>
      match inner with
      | TNullable x => lc_reserved (S (length inp)) (deser x) (reserved x) true rows lc_init inp
      | _ => lc_reserved (S (length inp)) (deser inner) (reserved inner) false rows lc_init inp
      end
  | _ => [rows]                                                                           (* sized.rs 22 *)
  end.

(** block.rs 199-212: one column of a block. *)
Definition column_reserved (U : unicode) (D : tzdb) (rows : N) (inp : list N) : list N :=
  string_reserved inp ++ after (read_utf8_string inp) (fun _ inp =>
    string_reserved inp ++ after (read_utf8_string inp) (fun tname inp =>
      after (lift (parse_ty U D tname) inp) (fun t inp =>
        if 0 <? rows then after (deser_prefix t inp) (fun _ inp => reserved t rows inp) else []))).
(** block.rs 178-215 [Block::read] *)
Definition block_reserved (U : unicode) (D : tzdb) (revision : N) (inp : list N) : list N :=
  after ((if 0 <? revision then read_info else rret default_info) inp) (fun _ inp =>
    after (read_var_uint inp) (fun columns inp =>
      after (read_var_uint inp) (fun rows inp =>
        each (N.to_nat columns) (read_column U D rows) (column_reserved U D rows) inp))).

(** compression.rs 43,93: bytes reserved for the compressed and for the decompressed data. *)
Definition blob_reserved (K : codec) (inp : list N) : list N :=
  after (read_le 8 inp) (fun hi inp => after (read_le 8 inp) (fun lo inp => after (read_le 1 inp) (fun type_byte inp =>
    if negb (type_byte =? LZ4_BYTE) then [] else
    after (read_le 4 inp) (fun compressed_size inp =>
      if MAX_COMPRESSION_SIZE <? compressed_size then [] else if compressed_size <? 9 then [] else
      after (read_le 4 inp) (fun decompressed_size inp =>
        [compressed_size] ++ after (read_exact (compressed_size - 9) inp) (fun data _ =>
          if negb (city K ([type_byte] ++ le_bytes 4 compressed_size ++ le_bytes 4 decompressed_size ++ data) =? hi * 2 ^ 64 + lo)
          then [] else [decompressed_size + 1])))))).
