(** Model of the public query and insert functions of klickhouse/src/client.rs 311-560, as
    functions of what the connection (Connection.v) delivers to the caller and of what the
    caller hands to the connection. *)
From Verif Require Import Base Types IndexMap Block Progress Protocol Connection.
Local Open Scope list_scope.

(* ---------------- results ---------------- *)
Section Query.
  (** A row type: [T::deserialize_row]. *)
  Context {T : Type} (deserialize_row : list (text * ty * value) -> res T).

  (** client.rs 498-512 [query]: what the stream yields for one item.  A panic while a block
      is taken apart happens in the caller and is the last thing it sees. *)
  Definition item_rows (i : item) : list (res T) :=
    match i with
    | IBlock b =>
      match take_iter_rows b with
      | Ok rows => map deserialize_row (filter (fun row => negb (lenN row =? 0)) rows)
      | Err e => [Err e]
      | Panic => [Panic]
      end
    | IError _ => [Err EServerException]
    end.
  Definition query (items : list item) : list (res T) := flat_map item_rows items.

  (** client.rs 514-525 [query_collect] *)
  Fixpoint collect (s : list (res T)) : res (list T) :=
    match s with
    | [] => Ok []
    | Ok r :: s => out <- collect s ;; Ok (r :: out)
    | Err e :: _ => Err e
    | Panic :: _ => Panic
    end.
  Definition query_collect (items : list item) : res (list T) := collect (query items).
  (** client.rs 527-537 [query_one] *)
  Definition query_one (items : list item) : res T :=
    match query items with [] => Err EMissingRow | r :: _ => r end.
  (** client.rs 539-545 [query_opt] *)
  Definition query_opt (items : list item) : res (option T) :=
    match query items with [] => Ok None | r :: _ => a <- r ;; Ok (Some a) end.
End Query.

(** client.rs 547-559 [execute]: with [RawRow], whose [deserialize_row] never fails
    (convert/raw_row.rs 21-28). *)
Definition execute (items : list item) : res unit :=
  rows <- query_collect (fun row : list (text * ty * value) => Ok row) items ;; Ok tt.

(* ---------------- inserts ---------------- *)
Section Insert.
  (** A row type: [serialize_row] given the types of the header block. *)
  Context {T : Type} (serialize_row : T -> imap ty -> res (list (text * value))).

  (** [if let Some(column) = get_mut(key) { push } else { insert(key, vec![value]) }] *)
  Definition push_value (k : text) (v : value) (m : imap (list value)) : imap (list value) :=
    match im_get k m with Some vs => im_insert k (vs ++ [v]) m | None => im_insert k [v] m end.

  (** client.rs 446-461: one row's values *)
  Fixpoint push_row (types : imap ty) (row : list (text * value)) (m : imap (list value)) : res (imap (list value)) :=
    match row with
    | [] => Ok m
    | (k, v) :: row =>
      match im_get k types with
      | None => Err EProtocol
      | Some t => _ <- validate_value t v ;; push_row types row (push_value k v m)
      end
    end.
  (** client.rs 436-462: rows that fail to serialize are logged and skipped *)
  Fixpoint push_rows (types : imap ty) (rows : list T) (m : imap (list value)) : res (imap (list value)) :=
    match rows with
    | [] => Ok m
    | r :: rows =>
      match serialize_row r types with
      | Panic => Panic
      | Err _ => push_rows types rows m
      | Ok row => m <- push_row types row m ;; push_rows types rows m
      end
    end.
  (** client.rs 430-435 *)
  Definition insert_block (types : imap ty) (rows : list T) : res block :=
    m <- push_rows types rows [] ;;
    Ok {| b_info := default_info; b_rows := lenN rows; b_types := types; b_data := m |}.

  (** client.rs 425-473 [insert_native] after the header: the blocks handed to the connection
      and how the function returns, if the connection takes all of them. *)
  Fixpoint insert_batches (types : imap ty) (batches : list (list T)) : list block * res unit :=
    match batches with
    | [] => ([empty_block], Ok tt)
    | [] :: batches => insert_batches types batches
    | rows :: batches =>
      match insert_block types rows with
      | Ok b => let '(bs, r) := insert_batches types batches in (b :: bs, r)
      | Err e => ([], Err e)
      | Panic => ([], Panic)
      end
    end.
  (** client.rs 413-424: the first item of the answer is the header *)
  Definition insert_native (first : option item) (batches : list (list T)) : list block * res unit :=
    match first with
    | None => ([], Err EProtocol)
    | Some (IError _) => ([], Err EServerException)
    | Some (IBlock h) => insert_batches (b_types h) batches
    end.
End Insert.
