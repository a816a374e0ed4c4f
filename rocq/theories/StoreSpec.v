(** A server that keeps the rows it is sent and answers a query with them, in whatever form it likes. *)
From Coq Require Import Permutation.
From Verif Require Import Base Io Types IndexMap Text TypeText TypeTextProofs Block BlockSpec BlockWire Compression FrameWire Protocol ProtocolSpec
  ColumnSpec Connection Api TripSpec.
Local Open Scope list_scope.
Local Open Scope N_scope.

(** A row: named values with the types of their columns. *)
Definition stored_row := list (text * ty * value).

(** The rows in a set of columns, each a name, a type and its values from the first row to the last. *)
Definition rows_in (rows : N) (cols : list (text * ty * list value)) : list stored_row :=
  map (fun i => map (fun c => (fst (fst c), snd (fst c), nth i (snd c) VNull)) cols) (seq 0 (N.to_nat rows)).

(** [payload_wire C table body]: [body] is the payload of a data packet that holds the rows [table]:
    a Native block (BlockWire.v) with different column names; with compression, cut into any number
    of frames (FrameWire.v), the last one not empty. *)
Definition holds (C : conn) (info : block_info) (rows : N) (cols : list (text * ty * list value)) (body : list N) : Prop :=
  NoDup (map (fun c => fst (fst c)) cols) /\ Forall (fun c => printable (c_uni C) (snd (fst c))) cols /\
  (cols = [] -> rows = 0) /\ rows < 2 ^ 57 /\
  (if c_lz4 C
   then exists raws frames, Forall2 (frame_wire (city (c_codec C)) (unpacks (c_codec C))) raws frames /\
          (forall l x, raws = l ++ [x] -> x <> []) /\
          block_wire (c_tz C) (c_rev C) info rows cols (concat raws) /\ body = concat frames
   else block_wire (c_tz C) (c_rev C) info rows cols body).
Definition payload_wire (C : conn) (table : list stored_row) (body : list N) : Prop :=
  exists info rows cols, holds C info rows cols body /\ table = rows_in rows cols.

(** What a server that reads the payloads one after the other has in its table afterwards. *)
Inductive stores (C : conn) : list (list N) -> list stored_row -> Prop :=
| st_nothing : stores C [] []
| st_payload t body bodies table : payload_wire C t body -> stores C bodies table -> stores C (body :: bodies) (t ++ table).

(** What a server may send in answer to a query for all rows: data packets for tables of any name,
    the rows cut into blocks anywhere, every block with its own order of columns and encoding. *)
Inductive replies (C : conn) : list stored_row -> list N -> Prop :=
| rp_nothing : replies C [] []
| rp_packet t name body table bs : name_fits name -> payload_wire C t body -> replies C table bs ->
    replies C (t ++ table) (enc_data 1 name body ++ bs).

(** The same row: the same named values, in any order, in LowCardinality columns or not. *)
Definition unwrapped (r : stored_row) : stored_row := map (fun c => (fst (fst c), strip_low_cardinality (snd (fst c)), snd c)) r.
Definition same_row (a b : stored_row) : Prop := Permutation (unwrapped a) (unwrapped b).
(** The same table: the same rows, in any order. *)
Definition same_table (a b : list stored_row) : Prop := exists a', Permutation a a' /\ Forall2 same_row a' b.

(** The row a server stores for the values [row] of a client row, under a header with these columns:
    each value as it is in a column of its type (a FixedString padded, say; C13). *)
Definition as_stored (types : imap ty) (row : list (text * value)) : stored_row :=
  map (fun e => (fst e, snd e, normal (snd e) (cell (fst e) row))) types.
