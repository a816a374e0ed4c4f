(** Model of rendering a [Value] as query text: values/mod.rs 309-462. *)
From Coq Require Import String.
From Verif Require Import Base Types Text Calendar.
Local Open Scope list_scope.
Local Open Scope N_scope.

(** What other crates and the formatting machinery of std decide: the text of floats ([{}], and
    [{:?}] for [x_debug]) and, from chrono-tz's tables, how many seconds a zone is ahead of
    UTC at an instant.  The text of dates, times and addresses is in Calendar.v. *)
Record ext_fmt := {
  x_f32 : N -> text; x_f64 : N -> text; x_bf16 : N -> text;
  x_offset : tz -> Z -> Z;                  (* zone, seconds since 1970 *)
  x_debug : N -> text                       (* of an f64 *)
}.

(** The derived [Debug] of a tuple struct around a list or an array: [Name([a, b])]. *)
Definition debug_list (name : string) (l : list text) : text := txt name ++ txt "([" ++ join (txt ", ") l ++ txt "])".
(** values/geo.rs 5-47: [Debug] of [Point], [Ring], [Polygon] and [MultiPolygon]. *)
Definition debug_point (E : ext_fmt) (p : point) : text := debug_list "Point" [x_debug E (fst p); x_debug E (snd p)].
Definition debug_ring (E : ext_fmt) (r : ring) : text := debug_list "Ring" (map (debug_point E) r).
Definition debug_polygon (E : ext_fmt) (p : polygon) : text := debug_list "Polygon" (map (debug_ring E) p).
Definition debug_multipolygon (E : ext_fmt) (m : multipolygon) : text := debug_list "MultiPolygon" (map (debug_polygon E) m).

(** [{:X}] of one half byte *)
Definition hex_upper (d : N) : N := if d <? 10 then 48 + d else 55 + d.
(** [{byte:02X}] *)
Definition hex2_upper (b : N) : text := [hex_upper (b / 16); hex_upper (b mod 16)].

(** values/mod.rs 313-328: one byte of [escape_string]. *)
Definition escape_byte (b : N) : text :=
  if b <? 128 then
    if b =? 92 then [92; 92]
    else if b =? 39 then [92; 39]
    else if b =? 8 then [92; 98]
    else if b =? 12 then [92; 102]
    else if b =? 13 then [92; 114]
    else if b =? 10 then [92; 110]
    else if b =? 9 then [92; 116]
    else if b =? 0 then [92; 48]
    else if b =? 7 then [92; 97]
    else if b =? 11 then [92; 118]
    else [b]
  else 92 :: 120 :: hex2_upper b.
(** values/mod.rs 309-331 [escape_string]. *)
Definition escape_string (bs : list N) : text := flat_map escape_byte bs.
(** values/mod.rs 392-396: a string value between quotes. *)
Definition quote (bs : list N) : text := [39] ++ escape_string bs ++ [39].

(** values/mod.rs 359-388: [Decimal32/64/128].  [raw.len()] is a byte count, here the
    number of (ASCII) characters. *)
Definition show_decimal (p : N) (x : Z) : text :=
  let raw := show_Z x in
  if lenN raw <? p then raw
  else firstn (length raw - N.to_nat p) raw ++ [46] ++ skipn (length raw - N.to_nat p) raw.

(** values/int256.rs Display of i256/u256: "0x" and 32 bytes in upper-case hex. *)
Definition show_hex256 (be : list N) : text := txt "0x" ++ flat_map hex2_upper be.

(** The uuid crate's hyphenated lower-case form of the 128-bit integer. *)
Fixpoint hex_digits_lower (k : nat) (n : N) : text :=
  match k with O => [] | S k' => hex_lower (n / 16 ^ N.of_nat k' mod 16) :: hex_digits_lower k' n end.
Definition show_uuid (n : N) : text :=
  let h := hex_digits_lower 32 n in
  firstn 8 h ++ [45] ++ firstn 4 (skipn 8 h) ++ [45] ++ firstn 4 (skipn 12 h) ++ [45] ++
  firstn 4 (skipn 16 h) ++ [45] ++ skipn 20 h.

(** The loop "first item, then [,item]" of 418-436. *)
Fixpoint comma_join (l : list text) : text :=
  match l with [] => [] | [x] => x | x :: r => x ++ [44] ++ comma_join r end.

(** One map entry [key:value] (445-450). *)
Definition map_entry (kv : text * text) : text := fst kv ++ [58] ++ snd kv.

(** Results of a list of renderings: the first panic or error stops the rendering. *)
Fixpoint seq_res {A} (l : list (res A)) : res (list A) :=
  match l with
  | [] => Ok []
  | Ok a :: r => match seq_res r with Ok t => Ok (a :: t) | Err e => Err e | Panic => Panic end
  | Err e :: _ => Err e
  | Panic :: _ => Panic
  end.

(** values/mod.rs 339-462 [Display for Value].  An [Err(fmt::Error)] makes [to_string] and
    [format!] panic, so it is [Panic] here.  [DateTime64] (409-416) first converts to chrono
    (values/date.rs 323-345): dividing by 10^precision, failing beyond chrono's range. *)
Fixpoint display (E : ext_fmt) (v : value) : res text :=
  match v with
  | VInt I128 x => Ok (show_Z x ++ txt "::Int128")
  | VInt _ x => Ok (show_Z x)
  | VInt256 be => Ok (show_hex256 be ++ txt "::Int256")
  | VUInt I128 x => Ok (show_N x ++ txt "::UInt128")
  | VUInt _ x => Ok (show_N x)
  | VUInt256 be => Ok (show_hex256 be ++ txt "::UInt256")
  | VFloat32 b => Ok (x_f32 E b)
  | VFloat64 b => Ok (x_f64 E b)
  | VBFloat16 b => Ok (x_bf16 E b)
  | VDecimal32 p x | VDecimal64 p x | VDecimal128 p x => Ok (show_decimal p x)
  | VDecimal256 _ _ => Panic
  | VString bs => Ok (quote bs)
  | VUuid n => Ok (txt "toUUID('" ++ show_uuid n ++ txt "')")
  | VDate d => Ok (date_text d)
  | VDateTime z t => Ok (txt "parseDateTimeBestEffort('" ++ escape_string (rfc3339 (x_offset E z (Z.of_N t)) (Z.of_N t) 0) ++ txt "')")
  | VDateTime64 z t p =>
      if (9 <? p) || (CHRONO_MAX_SECS <? t / 10 ^ p) then Panic
      else Ok (txt "parseDateTime64BestEffort('" ++
               escape_string (rfc3339 (x_offset E z (Z.of_N (t / 10 ^ p))) (Z.of_N (t / 10 ^ p)) (t mod 10 ^ p * 10 ^ (9 - p))) ++
               txt "', " ++ show_N p ++ txt ")")
  | VEnum8 x | VEnum16 x => Ok (show_Z x)
  | VArray l => r <- seq_res (map (display E) l) ;; Ok ([91] ++ comma_join r ++ [93])
  | VTuple l => r <- seq_res (map (display E) l) ;; Ok ([40] ++ comma_join r ++ [41])
  | VNull => Ok (txt "NULL")
  | VMap ks vs =>
      if negb (lenN ks =? lenN vs) then Panic else
      rk <- seq_res (map (display E) ks) ;;
      rv <- seq_res (map (display E) vs) ;;
      Ok ([123] ++ comma_join (map map_entry (combine rk rv)) ++ [125])
  | VIpv4 n => Ok ([39] ++ show_ipv4 n ++ [39])
  | VIpv6 o => Ok ([39] ++ show_ipv6 o ++ [39])
  | VPoint p => Ok (debug_point E p)
  | VRing r => Ok (debug_ring E r)
  | VPolygon p => Ok (debug_polygon E p)
  | VMultiPolygon m => Ok (debug_multipolygon E m)
  end.
