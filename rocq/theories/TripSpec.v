(** The whole way of inserted rows: into blocks, onto the wire, and back through a query. *)
From Coq Require Import Permutation.
From Verif Require Import Base Io Types IndexMap Text TypeText TypeTextProofs Block BlockSpec Compression CompressionProofs Protocol ProtocolSpec
  ColumnSpec  Connection Api.
Local Open Scope list_scope.
Local Open Scope N_scope.

(** The header a server announces for an insert: some columns, of different names, whose names
    and types can be written and read. *)
Definition header_ok (C : conn) (types : imap ty) : Prop :=
  types <> [] /\ NoDup (im_keys types) /\ lenN types < 2 ^ 63 /\
  forall k t, In (k, t) types -> name_fits k /\ name_fits (show_ty (c_tz C) t) /\ printable (c_uni C) t.

(** The value a row has for a column. *)
Fixpoint cell (k : text) (row : list (text * value)) : value :=
  match row with [] => VNull | (k', v) :: row => if text_eqb k k' then v else cell k row end.
(** A row gives every column of the header one value, accepted by the column's type (C68) and
    of the type's shape (C13). *)
Definition row_ok (types : imap ty) (row : list (text * value)) : Prop :=
  Permutation (map fst row) (im_keys types) /\
  forall k t, In (k, t) types -> validate_value t (cell k row) = Ok tt /\ representable (cell k row) = true /\ shape_ok t (cell k row) = true.
(** The sizes of a batch fit the wire format. *)
Definition batch_fits (types : imap ty) (rows : list (list (text * value))) : Prop :=
  lenN rows < 2 ^ 63 /\ forall k t, In (k, t) types -> fits t (map (cell k) rows).

(** A row as it is read back: the header's columns in the header's order, each value as it comes
    back from a column of its type (C13). *)
Definition read_back (types : imap ty) (row : list (text * value)) : list (text * ty * value) :=
  map (fun e => (fst e, strip_low_cardinality (snd e), normal (snd e) (cell (fst e) row))) types.

(** With compression, a block is sent in one frame, which has to be small enough. *)
Definition compressible (C : conn) (b : block) : Prop :=
  c_lz4 C = true -> codec_ok (c_codec C) /\ forall bytes, write_block (c_tz C) (c_rev C) b = Ok bytes -> payload_ok (c_codec C) bytes.

(** The data packets in a run of bytes, all of it read. *)
Inductive receives (C : conn) : list N -> list item -> Prop :=
| rec_end : receives C [] []
| rec_data bs table b rest items : read_packet C bs = Ok (PData table b, rest) -> receives C rest items ->
    receives C bs (IBlock b :: items).

(** A server that sends back what it was sent: each payload in a data packet of some table. *)
Definition echo (tables : list text) (bodies : list (list N)) : list N :=
  concat (map (fun tb => enc_data 1 (fst tb) (snd tb)) (combine tables bodies)).
