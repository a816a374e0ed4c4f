(** Model of here-documents in queries: query_parser.rs 7-16. *)
From Verif Require Import Base Types Text Migrate.
Local Open Scope list_scope.
Local Open Scope N_scope.

(** [str::find] for a string pattern: where its first occurrence starts.  Positions are counted in
    characters here, in bytes there; both cut the text at the same places. *)
Fixpoint find_from (i : nat) (pat s : text) : option nat :=
  if prefix pat s then Some i else match s with [] => None | _ :: r => find_from (S i) pat r end.
Definition find (pat s : text) : option nat := find_from 0 pat s.

(** Slicing past the end of the text panics. *)
Definition split_at (k : nat) (s : text) : res (text * text) :=
  if Nat.leb k (length s) then Ok (firstn k s, skipn k s) else Panic.

(** query_parser.rs 7-16 [parse_heredoc]; [parse_str::<'$'>] is of the crate compiler_tools and a
    parameter here. *)
Definition parse_heredoc (parse_str : text -> option (text * text)) (input : text) : res (option (text * text)) :=
  match parse_str input with
  | None => Ok None
  | Some (tag, remaining) =>
    match find tag remaining with
    | None => Ok None
    | Some at_ => p <- split_at (length tag * 2 + at_) input ;; Ok (Some p)
    end
  end.
