(** What [Block::write] and [send_data] have handed to the socket's writer when they fail: block.rs
    219-251 and internal_client_out.rs 193-225, write by write.  The writer is a [BufWriter]: any
    prefix of what it was handed may have gone to the server by then, and nothing else.
    Simplification: what a serializer that panics in the middle of a column has handed over is a
    parameter ([part]); serializers do not fail in any other way (Ser.v). *)
From Verif Require Import Base Io Types Text TypeText IndexMap Ser Block Compression Progress Protocol.
Local Open Scope list_scope.
Local Open Scope N_scope.

Section Until.
  Variable part : ty -> list value -> list N.

  (** block.rs 233-249: name and type go out before the length is checked *)
  Definition column_until (D : tzdb) (rows : N) (c : text * ty * list value) : list N * res unit :=
    let '(name, t, data) := c in
    let head := write_text name ++ write_text (show_ty D t) in
    if negb (lenN data =? rows) then (head, Err EProtocol)
    else if 0 <? rows then
      match ser t data with
      | Ok bs => (head ++ ser_prefix t ++ bs, Ok tt)
      | Err e => (head ++ ser_prefix t ++ part t data, Err e)
      | Panic => (head ++ ser_prefix t ++ part t data, Panic)
      end
    else (head, Ok tt).
  Fixpoint columns_until (D : tzdb) (rows : N) (cols : list (text * ty * list value)) : list N * res unit :=
    match cols with
    | [] => ([], Ok tt)
    | c :: cols =>
      match column_until D rows c with
      | (bs, Ok _) => let '(more, r) := columns_until D rows cols in (bs ++ more, r)
      | failed => failed
      end
    end.
  (** block.rs 219-251 *)
  Definition block_until (D : tzdb) (rev : N) (b : block) : list N * res unit :=
    let joined := join_columns (b_types b) (b_data b) in
    let '(bs, r) := columns_until D (b_rows b) joined in
    ((if 0 <? rev then write_info (b_info b) else []) ++ write_var_uint (lenN joined) ++ write_var_uint (b_rows b) ++ bs, r).
  (** internal_client_out.rs 193-225; with compression the block is written into a buffer of its own
      first (compression.rs 14-27) *)
  Definition data_until (C : conn) (b : block) (name : text) : list N * res unit :=
    let head := write_var_uint 2 ++ write_text name in
    if c_lz4 C then
      match write_compressed (c_codec C) (c_tz C) (c_rev C) b with
      | Ok body => (head ++ body, Ok tt)
      | Err e => (head, Err e)
      | Panic => (head, Panic)
      end
    else let '(body, r) := block_until (c_tz C) (c_rev C) b in (head ++ body, r).
End Until.

(** Types whose columns have no bytes at all. *)
Inductive no_bytes : ty -> Prop :=
| nb_fixed : no_bytes (TFixedString 0)
| nb_tuple ts : Forall no_bytes ts -> no_bytes (TTuple ts).
Fixpoint zero_width (t : ty) : bool :=
  match t with
  | TFixedString n => n =? 0
  | TTuple ts => forallb zero_width ts
  | _ => false
  end.
