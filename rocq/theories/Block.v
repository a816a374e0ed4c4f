(** Model of klickhouse/src/block.rs. *)
From Verif Require Import Base Io Types Text TypeText Utf8 IndexMap Ser Deser.

(** io.rs 14-16 [read_utf8_string] *)
Definition read_utf8_string : rd text :=
  bs <~ read_string ;;; match utf8_decode bs with Some s => rret s | None => rerr EUtf8 end.
(** [write_string(&name)] of a Rust string: its UTF-8 bytes. *)
Definition write_text (s : text) : list N := write_string (utf8 s).

(** A pure step inside a reader ([?] on a [Result] that does not touch the stream). *)
Definition lift {A} (r : res A) : rd A := fun inp => a <- r ;; Ok (a, inp).

(** block.rs 16-19 *)
Record block_info := { is_overflows : bool; bucket_num : Z }.
(** block.rs 21-28 *)
Definition default_info : block_info := {| is_overflows := false; bucket_num := -1 |}.

(** block.rs 31-50 [BlockInfo::read].  The [loop] reads at least one byte per round, so one
    round per byte of input plus one is enough fuel ([info_terminates]). *)
Fixpoint info_loop (fuel : nat) (i : block_info) (inp : list N) : res (block_info * list N) :=
  match fuel with
  | O => Err EFuel
  | S f =>
      '(field, inp) <- read_var_uint inp ;;
      if field =? 0 then Ok (i, inp)
      else if field =? 1 then
        '(b, inp) <- read_le 1 inp ;;
        info_loop f {| is_overflows := negb (b =? 0); bucket_num := bucket_num i |} inp
      else if field =? 2 then
        '(b, inp) <- read_le 4 inp ;;
        info_loop f {| is_overflows := is_overflows i; bucket_num := u2s 32 b |} inp
      else Err EProtocol
  end.
Definition read_info : rd block_info := fun inp => info_loop (S (length inp)) default_info inp.

(** block.rs 52-61 [BlockInfo::write]; note the 2 for "false". *)
Definition write_info (i : block_info) : list N :=
  write_var_uint 1 ++ [if is_overflows i then 1 else 2] ++
  write_var_uint 2 ++ le_bytes 4 (s2u 32 (bucket_num i)) ++ write_var_uint 0.

(** block.rs 64-76 *)
Record block := {
  b_info : block_info; b_rows : N;
  b_types : imap ty; b_data : imap (list value) }.

(** block.rs 199-212: one column of [Block::read]. *)
Definition read_column (U : unicode) (D : tzdb) (rows : N) : rd (text * ty * list value) :=
  name <~ read_utf8_string ;;;
  tname <~ read_utf8_string ;;;
  t <~ lift (parse_ty U D tname) ;;;
  data <~ (if 0 <? rows then _ <~ deser_prefix t ;;; deser t rows else rret []) ;;;
  rret (name, t, data).

(** block.rs 191,198-213: both maps are filled with [insert]. *)
Definition add_column (b : block) (c : text * ty * list value) : block :=
  let '(name, t, data) := c in
  {| b_info := b_info b; b_rows := b_rows b;
     b_types := im_insert name t (b_types b); b_data := im_insert name data (b_data b) |}.

(** block.rs 179-217 [Block::read].  [for _ in 0..columns] pushes as it goes; the columns are
    collected first here, which is the same because an error discards the block. *)
Definition read_block (U : unicode) (D : tzdb) (revision : N) : rd block :=
  info <~ (if 0 <? revision then read_info else rret default_info) ;;;
  columns <~ read_var_uint ;;;
  rows <~ read_var_uint ;;;
  cols <~ read_n (N.to_nat columns) (read_column U D rows) ;;;
  rret (fold_left add_column cols {| b_info := info; b_rows := rows; b_types := []; b_data := [] |}).

(** block.rs 223-230: the types in order, joined with the data by [swap_remove]; a column
    without data is dropped. *)
Fixpoint join_columns (types : imap ty) (data : imap (list value)) : list (text * ty * list value) :=
  match types with
  | [] => []
  | (k, t) :: r => match im_swap_remove k data with
                   | Some (vs, data') => (k, t, vs) :: join_columns r data'
                   | None => join_columns r data
                   end
  end.

(** block.rs 233-249: one column of [Block::write]. *)
Definition write_column (D : tzdb) (rows : N) (c : text * ty * list value) : res (list N) :=
  let '(name, t, data) := c in
  if negb (lenN data =? rows) then Err EProtocol
  else body <- (if 0 <? rows then bs <- ser t data ;; Ok (ser_prefix t ++ bs) else Ok []) ;;
       Ok (write_text name ++ write_text (show_ty D t) ++ body).

(** block.rs 219-251 [Block::write]: the bytes written on success.  (On failure some of
    them have already been written to the connection.) *)
Definition write_block (D : tzdb) (revision : N) (b : block) : res (list N) :=
  let joined := join_columns (b_types b) (b_data b) in
  cols <- mapM (write_column D (b_rows b)) joined ;;
  Ok ((if 0 <? revision then write_info (b_info b) else []) ++
      write_var_uint (lenN joined) ++ write_var_uint (b_rows b) ++ concat cols).

(* ---------------- row iterators ---------------- *)

(** [slice.get(i)] *)
Definition get_at {A} (l : list A) (i : N) : option A := nthN l i.

(** block.rs 84-98 [BlockRowIter::next] at row [i], given [i < rows] *)
Fixpoint row_at (data : imap (list value)) (i : N) : option (list (text * value)) :=
  match data with
  | [] => Some []
  | (k, vs) :: r =>
      match get_at vs i with
      | None => None
      | Some v => match row_at r i with Some out => Some ((k, v) :: out) | None => None end
      end
  end.
(** block.rs 145-151 [iter_rows], run to exhaustion; [n] rows are left from row [i]. *)
Fixpoint iter_rows_from (data : imap (list value)) (i : N) (n : nat) : list (list (text * value)) :=
  match n with
  | O => []
  | S n' => match row_at data i with None => [] | Some row => row :: iter_rows_from data (i + 1) n' end
  end.
Definition iter_rows (b : block) : list (list (text * value)) :=
  iter_rows_from (b_data b) 0 (N.to_nat (b_rows b)).

(** block.rs 100-118, 120-139: one [next] pops the head of every column, in order; [None]
    at the first exhausted column or when there is none. *)
Fixpoint pop_row {A B} (cols : list (A * list B)) : option (list (A * B) * list (A * list B)) :=
  match cols with
  | [] => Some ([], [])
  | (k, []) :: _ => None
  | (k, v :: vs) :: r =>
      match pop_row r with Some (row, rest) => Some ((k, v) :: row, (k, vs) :: rest) | None => None end
  end.
(** Run to exhaustion; every round shortens every column, so the length of the first is
    enough fuel (at most one more call returns [None]). *)
Fixpoint pop_rows {A B} (fuel : nat) (cols : list (A * list B)) : list (list (A * B)) :=
  match fuel with
  | O => []
  | S f => match cols with
           | [] => []
           | _ => match pop_row cols with None => [] | Some (row, rest) => row :: pop_rows f rest end
           end
  end.
Definition first_len {A B} (cols : list (A * list B)) : nat :=
  match cols with [] => 0%nat | (_, vs) :: _ => S (length vs) end.

(** block.rs 150-159 [take_iter_rows]: [get_key_value(&name).unwrap()], LowCardinality stripped.
    Line 153, [Vec::with_capacity(self.rows as usize)], reserves as many entries as there are rows (not
    columns) and panics if they exceed [isize::MAX] bytes; an entry is a [&str], a [&Type] and a
    [vec::IntoIter], 56 bytes on a 64-bit machine. *)
Definition ROW_ITER_ENTRY : N := 56.
Definition take_iter_rows (b : block) : res (list (list (text * ty * value))) :=
  if ISIZE_MAX <? ROW_ITER_ENTRY * b_rows b then Panic else
  cols <- mapM (fun e : text * list value =>
                 match im_get (fst e) (b_types b) with
                 | Some t => Ok ((fst e, strip_low_cardinality t), snd e)
                 | None => Panic
                 end) (b_data b) ;;
  Ok (pop_rows (first_len cols) cols).

(** block.rs 165-177 [into_iter_rows]; each row is an IndexMap from name to (type, value). *)
Definition into_iter_rows (b : block) : res (list (imap (ty * value))) :=
  cols <- mapM (fun e : text * list value =>
                 match im_get (fst e) (b_types b) with
                 | Some t => Ok (fst e, map (fun v => (t, v)) (snd e))
                 | None => Panic
                 end) (b_data b) ;;
  Ok (map (fun row => fold_left (fun m kv => im_insert (fst kv) (snd kv) m) row []) (pop_rows (first_len cols) cols)).
