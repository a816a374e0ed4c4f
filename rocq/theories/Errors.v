(** Model of klickhouse/src/errors.rs with the texts of the messages (Base.err drops them), and of the error
    which [Client::execute] returns for the answer of the server. *)
From Coq Require Import String.
From Verif Require Import Base Types Text TypeText Block Protocol Connection.
Local Open Scope list_scope.
Local Open Scope N_scope.

(** [std::io::Error]: its kind, the operating system's error number if it carries one, its [Display]. *)
Record io_error := { io_kind : N; io_os : option Z; io_shown : text }.

(** errors.rs 7-45 *)
Inductive kerror :=
| KMissingRow | KDoubleFetch | KOutOfBounds
| KMissingField (f : text)
| KDuplicateField (f : text)
| KProtocol (m : text)
| KTypeParse (m : text)
| KDeserialize (m : text)
| KSerialize (m : text)
| KDeserializeCol (c m : text)
| KServer (code : Z) (name message stack : text)
| KUnexpectedType (t : ty)
| KUnexpectedTypeCol (c : text) (t : ty)
| KIo (e : io_error)
| KUtf8 (shown : text).      (* [FromUtf8Error], by its [Display] *)

(** errors.rs 9-44: the [#[error(...)]] attributes, i.e. [Display]. *)
Definition display (D : tzdb) (e : kerror) : text :=
  match e with
  | KMissingRow => txt "no rows received when expecting at least one row"
  | KDoubleFetch => txt "can't fetch the same column twice from RawRow"
  | KOutOfBounds => txt "column index was out of bounds or not present"
  | KMissingField f => txt "missing field " ++ f
  | KDuplicateField f => txt "duplicate field " ++ f ++ txt " in struct"
  | KProtocol m => txt "protocol error: " ++ m
  | KTypeParse m => txt "type parse error: " ++ m
  | KDeserialize m => txt "deserialize error: " ++ m
  | KSerialize m => txt "serialize error: " ++ m
  | KDeserializeCol c m => txt "deserialize error for column " ++ c ++ txt ": " ++ m
  | KServer code name message stack =>
      txt "server exception: " ++ show_Z code ++ txt " " ++ name ++ txt ": " ++ message ++ 10 :: stack
  | KUnexpectedType t => txt "unexpected type: " ++ show_ty D t
  | KUnexpectedTypeCol c t => txt "unexpected type for column " ++ c ++ txt ": " ++ show_ty D t
  | KIo e => txt "io error: " ++ io_shown e
  | KUtf8 m => txt "utf-8 conversion error: " ++ m
  end.

(** errors.rs 47-59 [with_column_name] *)
Definition with_column_name (name : text) (e : kerror) : kerror :=
  match e with
  | KDeserialize m => KDeserializeCol name m
  | KUnexpectedType t => KUnexpectedTypeCol name t
  | x => x
  end.

(** errors.rs 61-95 [Clone]: an [io::Error] is rebuilt from its kind and text, [io::Error::new] (91). *)
Definition kclone (e : kerror) : kerror :=
  match e with
  | KMissingRow => KMissingRow
  | KDoubleFetch => KDoubleFetch
  | KOutOfBounds => KOutOfBounds
  | KMissingField f => KMissingField f
  | KDuplicateField f => KDuplicateField f
  | KProtocol m => KProtocol m
  | KTypeParse m => KTypeParse m
  | KDeserialize m => KDeserialize m
  | KSerialize m => KSerialize m
  | KDeserializeCol c m => KDeserializeCol c m
  | KServer code name message stack => KServer code name message stack
  | KUnexpectedType t => KUnexpectedType t
  | KUnexpectedTypeCol c t => KUnexpectedTypeCol c t
  | KIo e => KIo {| io_kind := io_kind e; io_os := None; io_shown := io_shown e |}
  | KUtf8 m => KUtf8 m
  end.

(** protocol.rs 120-129 [ServerException::emit]: the nested exception is not kept. *)
Definition emitted (e : server_exception) : kerror := KServer (x_code e) (x_name e) (x_message e) (x_stack e).

(** client.rs 525-534 [execute] on the items of a result stream that has ended: the first error, if there is one
    (the rows of proper blocks never fail as [RawRow]s, C32). *)
Fixpoint first_error (items : list item) : option kerror :=
  match items with
  | [] => None
  | IBlock _ :: rest => first_error rest
  | IError e :: _ => Some (emitted e)
  end.
