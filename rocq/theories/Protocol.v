(** Model of klickhouse/src/protocol.rs, internal_client_in.rs and internal_client_out.rs. *)
From Verif Require Import Base Io Types Text TypeText Utf8 IndexMap Ser Deser Block Compression Progress.
From Coq Require Import String.
Local Open Scope list_scope.
Local Open Scope N_scope.

(* ---------------- protocol.rs 6-30 ---------------- *)
Definition REV_CLIENT_INFO : N := 54032.
Definition REV_TIMEZONE : N := 54058.
Definition REV_QUOTA_KEY : N := 54060.
Definition REV_DISPLAY_NAME : N := 54372.
Definition REV_VERSION_PATCH : N := 54401.
Definition REV_WRITE_INFO : N := 54420.
Definition REV_INTERSERVER_SECRET : N := 54441.
Definition REV_OPENTELEMETRY : N := 54442.
Definition REV_DISTRIBUTED_DEPTH : N := 54448.
Definition TCP_PROTOCOL_VERSION : N := 54448.
(** lib.rs 4-6 *)
Definition VERSION_MAJOR : N := 22.
Definition VERSION_MINOR : N := 9.

(* ---------------- packets: protocol.rs 94-180 ---------------- *)
Record server_hello := {
  h_name : text; h_major : N; h_minor : N; h_revision : N;
  h_timezone : option text; h_display : option text; h_patch : N }.
Record server_exception := { x_code : Z; x_name : text; x_message : text; x_stack : text; x_nested : bool }.
Record profile_info := {
  pi_rows : N; pi_blocks : N; pi_bytes : N; pi_applied : bool; pi_before : N; pi_calculated : bool }.
Record table_status := { ts_replicated : bool; ts_delay : N }.
Inductive packet :=
| PHello (h : server_hello)
| PData (table : text) (b : block)
| PException (e : server_exception)
| PProgress (p : progress)
| PPong
| PEndOfStream
| PProfileInfo (i : profile_info)
| PTotals (table : text) (b : block)
| PExtremes (table : text) (b : block)
| PTablesStatus (m : imap (imap table_status))
| PLog (table : text) (b : block)
| PTableColumns (name description : text)
| PPartUUIDs (l : list (list N))
| PReadTaskRequest.

(* ---------------- internal_client_in.rs ---------------- *)

(** [read_u8().await? != 0] *)
Definition read_bool : rd bool := b <~ read_le 1 ;;; rret (negb (b =? 0)).
(** [if c { Some(r.await?) } else { None }] *)
Definition read_opt {A} (c : bool) (r : rd A) : rd (option A) :=
  if c then (a <~ r ;;; rret (Some a)) else rret None.

(** internal_client_in.rs 36-50 [read_exception]; a nested exception is not read. *)
Definition read_exception : rd server_exception :=
  code <~ read_le 4 ;;;
  name <~ read_utf8_string ;;;
  message <~ read_utf8_string ;;;
  stack <~ read_utf8_string ;;;
  nested <~ read_bool ;;;
  rret {| x_code := u2s 32 code; x_name := name; x_message := message; x_stack := stack; x_nested := nested |}.

(** What the connection is set up with: external functions, whether the [compression]
    feature is on, and [server_hello.revision_version]. *)
Record conn := { c_codec : codec; c_uni : unicode; c_tz : tzdb; c_lz4 : bool; c_rev : N }.

(** internal_client_in.rs 69-80 [receive_data] *)
Definition read_payload (C : conn) : rd block :=
  if c_lz4 C then read_compressed (c_codec C) (c_uni C) (c_tz C) (c_rev C)
  else read_block (c_uni C) (c_tz C) (c_rev C).
Definition read_data (C : conn) (mk : text -> block -> packet) : rd packet :=
  table <~ read_utf8_string ;;; b <~ read_payload C ;;; rret (mk table b).

(** internal_client_in.rs 89-118 *)
Definition read_hello : rd server_hello :=
  name <~ read_utf8_string ;;;
  major <~ read_var_uint ;;;
  minor <~ read_var_uint ;;;
  revision <~ read_var_uint ;;;
  timezone <~ read_opt (REV_TIMEZONE <? revision) read_utf8_string ;;;
  display <~ read_opt (REV_DISPLAY_NAME <? revision) read_utf8_string ;;;
  patch <~ (if REV_VERSION_PATCH <? revision then read_var_uint else rret revision) ;;;
  rret {| h_name := name; h_major := major; h_minor := minor; h_revision := revision;
          h_timezone := timezone; h_display := display; h_patch := patch |}.

(** internal_client_in.rs 124-149 *)
Definition read_progress (rev : N) : rd progress :=
  rr <~ read_var_uint ;;;
  rb <~ read_var_uint ;;;
  nt <~ read_var_uint ;;;
  wr <~ read_opt (REV_WRITE_INFO <=? rev) read_var_uint ;;;
  wb <~ read_opt (REV_WRITE_INFO <=? rev) read_var_uint ;;;
  rret {| read_rows := rr; read_bytes := rb; new_total_rows_to_read := nt; new_written_rows := wr; new_written_bytes := wb |}.

(** internal_client_in.rs 152-167 *)
Definition read_profile : rd profile_info :=
  rows <~ read_var_uint ;;; blocks <~ read_var_uint ;;; bytes <~ read_var_uint ;;;
  applied <~ read_bool ;;; before <~ read_var_uint ;;; calculated <~ read_bool ;;;
  rret {| pi_rows := rows; pi_blocks := blocks; pi_bytes := bytes; pi_applied := applied; pi_before := before; pi_calculated := calculated |}.

(** internal_client_in.rs 184-205: one entry, and its insertion
    ([entry(db).or_default().insert(table, status)]) *)
Definition read_status : rd (text * text * table_status) :=
  db <~ read_utf8_string ;;; table <~ read_utf8_string ;;;
  repl <~ read_bool ;;;
  delay <~ (if repl then (d <~ read_var_uint ;;; rret (d mod 2 ^ 32)) else rret 0) ;;;
  rret (db, table, {| ts_replicated := repl; ts_delay := delay |}).
Definition add_status (m : imap (imap table_status)) (e : text * text * table_status) : imap (imap table_status) :=
  let '(db, table, st) := e in
  im_insert db (im_insert table st (match im_get db m with Some x => x | None => [] end)) m.
Definition read_tables_status : rd (imap (imap table_status)) :=
  size <~ read_var_uint ;;;
  if MAX_STRING_SIZE <? size then rerr EProtocol else
  es <~ read_n (N.to_nat size) read_status ;;;
  rret (fold_left add_status es []).

(** internal_client_in.rs 214-230 *)
Definition read_part_uuids : rd (list (list N)) :=
  len <~ read_var_uint ;;;
  if MAX_STRING_SIZE <? len then rerr EProtocol else
  read_n (N.to_nat len) (read_exact 16).

(** internal_client_in.rs 86-239 [receive_packet] with protocol.rs 66-92
    [ServerPacketId::from_u64]; Log runs into [unimplemented!()] (82-84). *)
Definition read_packet (C : conn) : rd packet :=
  id <~ read_var_uint ;;;
  match id with
  | 0 => h <~ read_hello ;;; rret (PHello h)
  | 1 => read_data C PData
  | 2 => e <~ read_exception ;;; rret (PException e)
  | 3 => p <~ read_progress (c_rev C) ;;; rret (PProgress p)
  | 4 => rret PPong
  | 5 => rret PEndOfStream
  | 6 => i <~ read_profile ;;; rret (PProfileInfo i)
  | 7 => read_data C PTotals
  | 8 => read_data C PExtremes
  | 9 => m <~ read_tables_status ;;; rret (PTablesStatus m)
  | 10 => rpanic
  | 11 => n <~ read_utf8_string ;;; d <~ read_utf8_string ;;; rret (PTableColumns n d)
  | 12 => l <~ read_part_uuids ;;; rret (PPartUUIDs l)
  | 13 => rret PReadTaskRequest
  | _ => rerr EProtocol
  end.

(** internal_client_in.rs 241-249 [receive_hello] *)
Definition receive_hello (C : conn) : rd server_hello :=
  p <~ read_packet C ;;;
  match p with PHello h => rret h | PException _ => rerr EServerException | _ => rerr EProtocol end.

(* ---------------- internal_client_out.rs ---------------- *)

(** internal_client_out.rs 36-56.  [open_telemetry] is always [None]: the type
    [OpenTelemetry] has private fields and no constructor, so nobody can supply one. *)
Record client_info := {
  ci_kind : N; ci_user : text; ci_query_id : text; ci_address : text; ci_os_user : text;
  ci_hostname : text; ci_client : text; ci_major : N; ci_minor : N; ci_tcp_version : N;
  ci_quota : text; ci_depth : N; ci_patch : N }.

(** internal_client_out.rs 58-98 [ClientInfo::write] *)
Definition write_client_info (i : client_info) (rev : N) : list N :=
  [ci_kind i] ++
  if ci_kind i =? 0 then [] else
  write_text (ci_user i) ++ write_text (ci_query_id i) ++ write_text (ci_address i) ++
  [1] ++
  write_text (ci_os_user i) ++ write_text (ci_hostname i) ++ write_text (ci_client i) ++
  write_var_uint (ci_major i) ++ write_var_uint (ci_minor i) ++ write_var_uint (ci_tcp_version i) ++
  (if REV_QUOTA_KEY <=? rev then write_text (ci_quota i) else []) ++
  (if REV_DISTRIBUTED_DEPTH <=? rev then write_var_uint (ci_depth i) else []) ++
  (if REV_VERSION_PATCH <=? rev then write_var_uint (ci_patch i) else []) ++
  (if REV_OPENTELEMETRY <=? rev then [0] else []).

(** internal_client_out.rs 117-126 *)
Record query_packet := {
  q_id : text; q_info : client_info; q_stage : N; q_lz4 : bool; q_text : text }.

(** internal_client_out.rs 136-165 [send_query] *)
Definition send_query (rev : N) (q : query_packet) : list N :=
  write_var_uint 1 ++ write_text (q_id q) ++
  (if REV_CLIENT_INFO <=? rev then write_client_info (q_info q) rev else []) ++
  write_text [] ++
  (if REV_INTERSERVER_SECRET <=? rev then write_text [] else []) ++
  write_var_uint (q_stage q) ++ [if q_lz4 q then 1 else 0] ++ write_text (q_text q).

(** internal_client_out.rs 193-225 [send_data] *)
Definition send_data (C : conn) (b : block) (name : text) (scalar : bool) : res (list N) :=
  body <- (if c_lz4 C then write_compressed (c_codec C) (c_tz C) (c_rev C) b else write_block (c_tz C) (c_rev C) b) ;;
  Ok (write_var_uint (if scalar then 7 else 2) ++ write_text name ++ body).

(** internal_client_out.rs 228-249 [send_hello] *)
Definition CLIENT_NAME : text := txt "ClickHouse Rust-Klickhouse 0.15.2".
Definition send_hello (db user password : text) : list N :=
  write_var_uint 0 ++ write_text CLIENT_NAME ++ write_var_uint VERSION_MAJOR ++ write_var_uint VERSION_MINOR ++
  write_var_uint TCP_PROTOCOL_VERSION ++ write_text db ++ write_text user ++ write_text password.

(** client.rs 61-86: the query packet of [dispatch_query] *)
Definition client_query (C : conn) (id query : text) : query_packet := {|
  q_id := id;
  q_info := {| ci_kind := 1; ci_user := []; ci_query_id := []; ci_address := txt "0.0.0.0:0"; ci_os_user := [];
               ci_hostname := txt "localhost"; ci_client := txt "ClickHouseclient"; ci_major := VERSION_MAJOR;
               ci_minor := VERSION_MINOR; ci_tcp_version := TCP_PROTOCOL_VERSION; ci_quota := []; ci_depth := 1; ci_patch := 1 |};
  q_stage := 2; q_lz4 := c_lz4 C; q_text := query |}.
