(** Model of a build without the feature [bfloat16]: values/bfloat16.rs 12-110 (the stubs that take
    the place of the [half] crate and panic when used), types/mod.rs 501-507 (the parser refuses the
    type's name) and the code that calls them.  Everything not repeated here is the same in both builds. *)
From Coq Require Import String.
From Verif Require Import Base Io Types Ser Deser Text TypeText Block.
Local Open Scope list_scope.
Local Open Scope N_scope.

(** types/mod.rs 480-523 with [is_bfloat16_enabled() = false] (505: a TypeParseError) *)
Definition plain_off (ident : text) : res ty :=
  if text_eqb ident (txt "BFloat16") then Err ETypeParse else or_err (lookup ident plain_table).
(** types/mod.rs 286-525 [Type::from_str], as [TypeText.parse_go] *)
Fixpoint parse_go_off (U : unicode) (D : tzdb) (fuel : nat) (s : text) {struct fuel} : res ty :=
  match fuel with
  | O => Err EFuel
  | S f =>
      let '(ident, following) := eat_identifier U true s in
      match ident with
      | [] => Err ETypeParse
      | _ =>
        match trim U following with
        | [] => plain_off ident
        | fol =>
          args <- parse_args U fol ;;
          match lookup ident head_table with
          | None => Err ETypeParse
          | Some h => apply_head U D (parse_go_off U D f) h args
          end
        end
      end
  end.
Definition parse_off (U : unicode) (D : tzdb) (s : text) : res ty := parse_go_off U D (S (List.length s)) s.

(** deserialize/sized.rs 49: the two bytes are read, then bfloat16.rs 80-84 panics. *)
Definition dec_sized_off (t : ty) : rd value :=
  match t with TBFloat16 => _ <~ read_le 2 ;;; rpanic | _ => dec_sized t end.
(** types/mod.rs 667-736 [deserialize_column], as [Deser.deser] *)
Fixpoint deser_off (t : ty) (rows : N) {struct t} : rd (list value) :=
  check_rows rows
  match t with
  | TString | TFixedString _ => deser_string t rows
  | TArray t' => deser_array_generic (deser_off t') Ok VArray rows
  | TRing => deser_ring rows
  | TPolygon => deser_polygon rows
  | TMultiPolygon => deser_multipolygon rows
  | TTuple ts =>
      tuples <~ (fix go (ts : list ty) (tuples : list (list value)) : rd (list (list value)) :=
         match ts with
         | [] => rret tuples
         | t1 :: ts' =>
             col <~ deser_off t1 rows ;;;
             fun inp => tuples' <- push_column tuples col ;; go ts' tuples' inp
         end) ts (repeat [] (N.to_nat rows)) ;;;
      rret (map VTuple tuples)
  | TPoint => deser_point rows
  | TNullable t' =>
      mask <~ read_exact rows ;;;
      out <~ deser_off t' rows ;;;
      fun inp => r <- apply_mask mask out ;; Ok (r, inp)
  | TMap k v =>
      if rows =? 0 then rret [] else
      offs <~ read_n (N.to_nat rows) (read_le 8) ;;;
      let total := last offs 0 in
      ks <~ deser_off k total ;;;
      if negb (lenN ks =? total) then rpanic else
      vs <~ deser_off v total ;;;
      if negb (lenN vs =? total) then rpanic else
      fun inp => r <- split_map 0 offs ks vs ;; Ok (r, inp)
  | TLowCard inner =>
      match inner with
      | TNullable x => deser_low_card true (deser_off x) rows
      | _ => deser_low_card false (deser_off inner) rows
      end
  | _ => read_n (N.to_nat rows) (dec_sized_off t)
  end.

(** block.rs 199-212 *)
Definition read_column_off (U : unicode) (D : tzdb) (rows : N) : rd (text * ty * list value) :=
  name <~ read_utf8_string ;;;
  tname <~ read_utf8_string ;;;
  t <~ lift (parse_off U D tname) ;;;
  data <~ (if 0 <? rows then _ <~ deser_prefix t ;;; deser_off t rows else rret []) ;;;
  rret (name, t, data).
(** block.rs 179-217 [Block::read] *)
Definition read_block_off (U : unicode) (D : tzdb) (revision : N) : rd block :=
  info <~ (if 0 <? revision then read_info else rret default_info) ;;;
  columns <~ read_var_uint ;;;
  rows <~ read_var_uint ;;;
  cols <~ read_n (N.to_nat columns) (read_column_off U D rows) ;;;
  rret (fold_left add_column cols {| b_info := info; b_rows := rows; b_types := []; b_data := [] |}).

(** serialize/sized.rs 37: bfloat16.rs 94-98 panics. *)
Definition enc_sized_off (v : value) : res (list N) :=
  match v with VBFloat16 _ => Panic | _ => enc_sized v end.
(** serialize/sized.rs 15-60; [justify_null_ref] asks for the default value of the column's type, which is
    the stub bfloat16.rs 68-70 if that is BFloat16 (here [t] is no composite type, types/mod.rs 757-779). *)
Definition ser_sized_off (t : ty) (vs : list value) : res (list N) :=
  rmap (@concat N) (mapM (fun v =>
    if is_null v then match t with TBFloat16 => Panic | _ => enc_sized_off (default_value t) end else enc_sized_off v) vs).
(** types/mod.rs 738-806 [serialize_column], as [Ser.ser] *)
Fixpoint ser_off (t : ty) (vs : list value) {struct t} : res (list N) :=
  match t with
  | TString | TFixedString _ => ser_string t vs
  | TArray t' => ser_array_generic unwrap_array (ser_off t') vs
  | TTuple ts =>
      rows <- mapM unwrap_tuple vs ;;
      if existsb (fun r => lenN ts <? lenN r) rows then Panic
      else
        (fix go (ts : list ty) (rows : list (list value)) : res (list N) :=
           match ts with
           | [] => Ok []
           | t1 :: ts' => b <- ser_off t1 (heads rows) ;; bs <- go ts' (tails rows) ;; Ok (b ++ bs)
           end) ts rows
  | TPoint => ser_point vs
  | TRing => ser_ring vs
  | TPolygon => ser_polygon vs
  | TMultiPolygon => ser_multipolygon vs
  | TNullable t' =>
      let mask := map (fun v => if is_null v then 1 else 0) vs in
      body <- ser_off t' vs ;; Ok (mask ++ body)
  | TMap k v =>
      kvs <- mapM unwrap_map vs ;;
      kb <- ser_off k (concat (map fst kvs)) ;;
      vb <- ser_off v (concat (map snd kvs)) ;;
      Ok (u64s (offsets_from 0 (map (fun kv => lenN (fst kv)) kvs)) ++ kb ++ vb)
  | TLowCard inner =>
      match inner with
      | TNullable x => ser_low_card true (ser_off x) vs
      | _ => ser_low_card false (ser_off inner) vs
      end
  | _ => ser_sized_off t vs
  end.
