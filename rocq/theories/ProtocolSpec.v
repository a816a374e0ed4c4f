(** The ClickHouse native protocol as the server speaks it, written independently of the
    client model: how a server of a given revision encodes its packets and reads the
    client's.  Source: ClickHouse's TCPHandler.cpp, ClientInfo.cpp, Progress.cpp, as
    documented in the protocol constants of protocol.rs. *)
From Verif Require Import Base Io Types Text Utf8 IndexMap Block BlockSpec Progress Protocol.

Definition enc_str (s : text) : list N := write_string (utf8 s).
Definition enc_bool (b : bool) : list N := [if b then 1 else 0].
Definition enc_when (c : bool) (bs : list N) : list N := if c then bs else [].

(** TCPHandler::sendHello: each optional field is present from its revision on. *)
Definition enc_hello (h : server_hello) : list N :=
  enc_str (h_name h) ++ write_var_uint (h_major h) ++ write_var_uint (h_minor h) ++ write_var_uint (h_revision h) ++
  enc_when (54058 <=? h_revision h) (enc_str (match h_timezone h with Some z => z | None => [] end)) ++
  enc_when (54372 <=? h_revision h) (enc_str (match h_display h with Some z => z | None => [] end)) ++
  enc_when (54401 <=? h_revision h) (write_var_uint (h_patch h)).
Definition hello_ok (h : server_hello) : Prop :=
  name_fits (h_name h) /\ h_major h < 2 ^ 63 /\ h_minor h < 2 ^ 63 /\ h_revision h < 2 ^ 63 /\ h_patch h < 2 ^ 63 /\
  match h_timezone h with Some z => name_fits z /\ 54058 <= h_revision h | None => h_revision h < 54058 end /\
  match h_display h with Some z => name_fits z /\ 54372 <= h_revision h | None => h_revision h < 54372 end /\
  (h_revision h < 54401 -> h_patch h = h_revision h).

(** What this client makes of a hello: a field introduced at some revision is read only from
    servers of a later revision (the comparison is strict), so exactly one field stays unread if
    the server's revision is one of the three. *)
Definition hello_seen (h : server_hello) : server_hello :=
  {| h_name := h_name h; h_major := h_major h; h_minor := h_minor h; h_revision := h_revision h;
     h_timezone := if 54058 <? h_revision h then h_timezone h else None;
     h_display := if 54372 <? h_revision h then h_display h else None;
     h_patch := if 54401 <? h_revision h then h_patch h else h_revision h |}.
Definition hello_unread (h : server_hello) : list N :=
  if h_revision h =? 54058 then enc_str (match h_timezone h with Some z => z | None => [] end)
  else if h_revision h =? 54372 then enc_str (match h_display h with Some z => z | None => [] end)
  else if h_revision h =? 54401 then write_var_uint (h_patch h)
  else [].

Definition enc_exception (e : server_exception) : list N :=
  le_bytes 4 (s2u 32 (x_code e)) ++ enc_str (x_name e) ++ enc_str (x_message e) ++ enc_str (x_stack e) ++ enc_bool (x_nested e).
Definition exception_ok (e : server_exception) : Prop :=
  (- 2 ^ 31 <= x_code e < 2 ^ 31)%Z /\ name_fits (x_name e) /\ name_fits (x_message e) /\ name_fits (x_stack e).

Definition enc_opt (o : option N) : list N := match o with Some n => write_var_uint n | None => [] end.
Definition enc_progress (p : progress) : list N :=
  write_var_uint (read_rows p) ++ write_var_uint (read_bytes p) ++ write_var_uint (new_total_rows_to_read p) ++
  enc_opt (new_written_rows p) ++ enc_opt (new_written_bytes p).
Definition opt_ok (rev : N) (o : option N) : Prop :=
  match o with Some n => n < 2 ^ 63 /\ 54420 <= rev | None => rev < 54420 end.
Definition progress_ok (rev : N) (p : progress) : Prop :=
  read_rows p < 2 ^ 63 /\ read_bytes p < 2 ^ 63 /\ new_total_rows_to_read p < 2 ^ 63 /\
  opt_ok rev (new_written_rows p) /\ opt_ok rev (new_written_bytes p).

Definition enc_profile (i : profile_info) : list N :=
  write_var_uint (pi_rows i) ++ write_var_uint (pi_blocks i) ++ write_var_uint (pi_bytes i) ++ enc_bool (pi_applied i) ++
  write_var_uint (pi_before i) ++ enc_bool (pi_calculated i).
Definition profile_ok (i : profile_info) : Prop :=
  pi_rows i < 2 ^ 63 /\ pi_blocks i < 2 ^ 63 /\ pi_bytes i < 2 ^ 63 /\ pi_before i < 2 ^ 63.

(** One packet without a data block; [entries] of a tables-status response are written in
    the order of the nested map. *)
Definition status_entries (m : imap (imap table_status)) : list (text * text * table_status) :=
  flat_map (fun dm => map (fun tm => (fst dm, fst tm, snd tm)) (snd dm)) m.
Definition enc_status (e : text * text * table_status) : list N :=
  let '(db, tb, st) := e in
  enc_str db ++ enc_str tb ++ enc_bool (ts_replicated st) ++ enc_when (ts_replicated st) (write_var_uint (ts_delay st)).
Definition status_ok (e : text * text * table_status) : Prop :=
  let '(db, tb, st) := e in
  name_fits db /\ name_fits tb /\ if ts_replicated st then ts_delay st < 2 ^ 32 else ts_delay st = 0.

Definition enc_packet (p : packet) : list N :=
  match p with
  | PHello h => write_var_uint 0 ++ enc_hello h
  | PException e => write_var_uint 2 ++ enc_exception e
  | PProgress p => write_var_uint 3 ++ enc_progress p
  | PPong => write_var_uint 4
  | PEndOfStream => write_var_uint 5
  | PProfileInfo i => write_var_uint 6 ++ enc_profile i
  | PTablesStatus m => write_var_uint 9 ++ write_var_uint (lenN (status_entries m)) ++ concat (map enc_status (status_entries m))
  | PTableColumns n d => write_var_uint 11 ++ enc_str n ++ enc_str d
  | PPartUUIDs l => write_var_uint 12 ++ write_var_uint (lenN l) ++ concat l
  | PReadTaskRequest => write_var_uint 13
  | PData _ _ | PTotals _ _ | PExtremes _ _ | PLog _ _ => []  (* see [enc_data] *)
  end.
Definition packet_ok (rev : N) (p : packet) : Prop :=
  match p with
  | PHello h => hello_ok h
  | PException e => exception_ok e
  | PProgress p => progress_ok rev p
  | PProfileInfo i => profile_ok i
  | PTablesStatus m => lenN (status_entries m) <= 2 ^ 30 /\ Forall status_ok (status_entries m) /\
      NoDup (im_keys m) /\ Forall (fun dm => NoDup (im_keys (snd dm)) /\ snd dm <> []) m
  | PTableColumns n d => name_fits n /\ name_fits d
  | PPartUUIDs l => lenN l <= 2 ^ 30 /\ Forall (fun u => lenN u = 16) l
  | PPong | PEndOfStream | PReadTaskRequest => True
  | PData _ _ | PTotals _ _ | PExtremes _ _ | PLog _ _ => False
  end.

(** Packets carrying a block: the id, the table name, the block bytes. *)
Definition enc_data (id : N) (table : text) (body : list N) : list N := write_var_uint id ++ enc_str table ++ body.

(* ---------------- the server reading the client ---------------- *)

Definition dec_str : rd text :=
  bs <~ read_string ;;; match utf8_decode bs with Some s => rret s | None => rerr EUtf8 end.
(** A server of revision [R] talking to a client that announced [client]: a field exists if
    both know it. *)
Definition knows (R client field : N) : bool := (field <=? R) && (field <=? client).

(** ClientInfo::read (TCP interface only) *)
Definition server_client_info (R client : N) : rd client_info :=
  kind <~ read_le 1 ;;;
  if kind =? 0 then rret {| ci_kind := 0; ci_user := []; ci_query_id := []; ci_address := []; ci_os_user := []; ci_hostname := [];
      ci_client := []; ci_major := 0; ci_minor := 0; ci_tcp_version := 0; ci_quota := []; ci_depth := 0; ci_patch := 0 |}
  else
  user <~ dec_str ;;; qid <~ dec_str ;;; addr <~ dec_str ;;;
  interface <~ read_le 1 ;;;
  if negb (interface =? 1) then rerr EProtocol else
  os <~ dec_str ;;; host <~ dec_str ;;; name <~ dec_str ;;;
  major <~ read_var_uint ;;; minor <~ read_var_uint ;;; tcp <~ read_var_uint ;;;
  quota <~ (if knows R client 54060 then dec_str else rret []) ;;;
  depth <~ (if knows R client 54448 then read_var_uint else rret 0) ;;;
  patch <~ (if knows R client 54401 then read_var_uint else rret tcp) ;;;
  trace <~ (if knows R client 54442 then read_le 1 else rret 0) ;;;
  if negb (trace =? 0) then rerr EProtocol else
  rret {| ci_kind := kind; ci_user := user; ci_query_id := qid; ci_address := addr; ci_os_user := os; ci_hostname := host;
          ci_client := name; ci_major := major; ci_minor := minor; ci_tcp_version := tcp; ci_quota := quota; ci_depth := depth; ci_patch := patch |}.

(** TCPHandler::receiveQuery, after the packet id: settings end with an empty name. *)
Definition server_query (R client : N) : rd (text * option client_info * text * N * N * text) :=
  id <~ dec_str ;;;
  info <~ read_opt (knows R client 54032) (server_client_info R client) ;;;
  setting <~ dec_str ;;;
  if negb (lenN setting =? 0) then rerr EProtocol else
  secret <~ (if knows R client 54441 then dec_str else rret []) ;;;
  stage <~ read_var_uint ;;; compression <~ read_var_uint ;;; query <~ dec_str ;;;
  rret (id, info, secret, stage, compression, query).

(** TCPHandler::receiveHello *)
Definition server_reads_hello : rd (text * N * N * N * text * text * text) :=
  name <~ dec_str ;;; major <~ read_var_uint ;;; minor <~ read_var_uint ;;; rev <~ read_var_uint ;;;
  db <~ dec_str ;;; user <~ dec_str ;;; password <~ dec_str ;;; rret (name, major, minor, rev, db, user, password).
