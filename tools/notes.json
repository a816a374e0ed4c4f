{
 "C01": {
  "note": "C01_varint_all_u64 is the exact behaviour for every u64 (v mod 2^63); the naive expectation, that every u64 survives, is refuted (C01_top_bit_refuted)."
 },
 "C07": {
  "note": "Exact count outside top-level LowCardinality (C07_row_count), never more (C07_never_more_rows), and fewer only if the bytes hold a header without keys (C07_fewer_only_without_keys). The naive claim without the exception is refuted (C07_low_cardinality_refuted)."
 },
 "C08": {
  "note": "C08_panics_iff characterises the panics for every valid type of addressable FixedString lengths; the naive claim (never panics) is refuted by concrete inputs and, for longer FixedStrings, in general (_refuted theorems)."
 },
 "C13": {
  "note": "C13_written_iff and C13_comes_back_iff are exact; the naive claim (validated means sendable) is refuted for tuples of the wrong length, maps of unequal lengths and NULL for a Nullable geo (_refuted)."
 },
 "C14": {
  "note": "C14_panics_iff is the exact condition; the naive claim (never a panic) is refuted (C14_rejection_refuted)."
 },
 "C15": {
  "note": "C15_default_valid_iff, C15_default_roundtrip and C15_default_sendable_iff cover every valid type; the naive claim is refuted for enums without a 0 variant."
 },
 "C11": {
  "note": "The statement excludes enum variant names with the parser's special characters; C11_enum_names_refuted shows the exclusion is necessary."
 },
 "C12": {
  "note": "C12_panics_iff is exact, C12_terminates and C12_otherwise_a_type_or_an_error cover the rest; C12_tidy_no_panic gives a simple sufficient condition. The naive claim (never panics) is refuted by three concrete texts."
 },
 "C17": {
  "note": "C17_info_read_back is the exact behaviour; a cleared overflow flag comes back set (C17_overflow_flag_refuted), because false is written as 2 and read as non-zero."
 },
 "C19": {
  "note": "Proved for blocks with at least one column, as stated; C19_no_columns_refuted shows that the iterators disagree on a block with rows but no columns, C19_huge_count_refuted that such a block from the wire can make the taking iterator panic."
 },
 "C40": {
  "note": "All packet kinds, hello at every revision (C40_hello_at_every_revision, C40_hello_unread_iff), termination, exact consumption and split-independence for arbitrary bytes. The naive claim is refuted at the three boundary revisions (C40_hello_boundary_refuted); C40_log_packet_panics and C40_nested_exception_not_read are the other two exceptions."
 },
 "C30": {
  "note": "Exact in both directions (C30_exactly_what_is_lost, C30_every_loss_is_possible, C30_nothing_else_is_lost). The naive claim, that packets are always read whole, is refuted: receive_packet is not cancel-safe inside select! (C30_request_mid_packet_refuted, C30_phantom_end_of_stream_refuted)."
 },
 "C49": {
  "note": "Exact (C49_own_query_iff, C49_late_data_is_sent). The naive claim, that data only goes out during its own query, is refuted (C49_foreign_data_refuted)."
 },
 "C52": {
  "note": "Both halves are general. The naive claim, that a result ending without an error is complete, is refuted (C52_truncated_refuted)."
 },
 "C53": {
  "note": "Exact condition (C53_held_up_only_by_a_full_stream, C53_reading_releases, C53_blocked_while_full). The naive claim, that callers never block each other, is refuted (C53_unread_stream_blocks_everyone_refuted)."
 },
 "C54": {
  "note": "C54_sent_when_ok and C54_later_exception_reaches_nobody. The naive claim, that Ok means accepted, is refuted (C54_rejected_insert_is_ok_refuted)."
 },
 "C55": {
  "note": "C55_failed_insert_sends_no_end, C55_open_insert_blocks. The naive claim, that a failed insert leaves the connection usable, is refuted (C55_failed_insert_blocks_connection_refuted)."
 },
 "C56": {
  "note": "Proved for every such batch. This is the opposite of what the log message says."
 },
 "C39": {
  "note": "Exact behaviour, including the panics at position = length and after a take; twelve theorems."
 },
 "C44": {
  "note": "C44_roundtrip, C44_end_to_end (through the wire), C44_no_panic; types with conversions of the user's own (RUser) are covered wherever those conversions are faithful (C44_user_nonvacuous); the pairings excluded by the statement are refuted one by one."
 },
 "C45": {
  "note": "Exact characterization; C45_hash_refuted and C45_reflexive_refuted show that the Eq/Hash contract itself is broken for points."
 },
 "C33": {
  "note": "C33_abandoned_attempt_refuted shows the last sentence of the statement: an attempt dropped after the server executed its CREATE leaves the lock taken until a reset."
 },
 "C34": {
  "note": "C34_exclusive with its proviso; without it two run, in every state (C34_takes_the_lock_by_force, C34_release_lets_a_third_in). The naive claim is refuted on concrete runs (C34_slow_migration_refuted, C34_release_steals_refuted)."
 },
 "C50": {
  "note": "C50_database_name_refuted shows that the proviso on database names is needed."
 },
 "C42": {
  "note": "Exact output and exact failures of every rule; the collisions under PascalCase/camelCase and the fact that 'lowercase' changes nothing are shown by _refuted theorems."
 },
 "C43": {
  "note": "Interpreter of the generated code over arbitrary declarations (plain, nested, flatten, default, skip, arbitrarily deep). The _refuted theorems show what a user might expect in addition and does not hold: unknown columns are not ignored, an absent nested field loops, nested hints come from the outer struct, flattened structs cannot share a column."
 },
 "C64": {
  "note": "Both directions (C64_accepted, C64_accepts). Parsing of the strings inside the attributes (paths, where clauses, types: syn) enters as three arbitrary functions. The _refuted theorems show what is silently ignored or reported although harmless."
 },
 "C65": {
  "note": "Coordinates are bit patterns compared as IEEE numbers. C65_nan_never_closed_refuted shows why the proviso on NaN is needed."
 },
 "C66": {
  "note": "The pool itself (bb8) is outside. C66_dead_connection_handed_out_refuted: connect can return a connection that died during its set-up; C66_blocked_connection_not_broken_refuted: a connection blocked by a failed insert is not reported broken and its validity check never returns."
 },
 "C67": {
  "note": "Composition of the hello exchange, the byte reader, the packet codec and the connection task. C67_login_reason_lost_refuted: a login refused with an exception ends in a generic protocol error; C67_connected_to_nobody_refuted: connect can succeed although the connection broke right after its settings query was sent."
 },
 "C68": {
  "note": "Exact (iff) against rules in ValidateSpec.v. C68_scale_zero_refuted: Decimal and DateTime64 of scale 0, legal in ClickHouse, are refused."
 },
 "C69": {
  "note": "C69_grammar is exact in both directions; the two _refuted theorems are findings about types the server sends that cannot be read."
 },
 "C70": {
  "note": "Fairness is in the hypotheses (LivenessSpec.v): the connection stays up, the server ends each query, requests are taken again and again, the task goes on when the channel it waits for has room, callers read or drop. C53 shows what happens when a caller does neither."
 },
 "C71": {
  "note": "C71_rows_come_back is for any row type; C71_structs_come_back for derived structs with nested and flattened fields; C71_plain_structs_come_back spells the conditions out for plain fields. Values in canonical form (C13); a block is compressed into one frame, which must be small enough."
 },
 "C72": {
  "note": "parse_str of the crate compiler_tools is a parameter; that the tokenizer keeps a here-document as one token is its declaration in query_parser.rs."
 },
 "C73": {
  "note": "SqlLex.v specifies the server's lexer (quotes, comments, words, characters; a dollar sign outside quotes ends what is specified). The text of a floating-point number is Rust's formatter's: only that it stays within its place is assumed (fmt_ok). The two _refuted theorems are findings."
 },
 "C74": {
  "note": "C74_plain_errors and C74_plain_outcome for structs of plain fields (the accusation is true); C74_errors for all structs whose conversions are the crate's (a user's own conversion may return any error); C74_utf8_refuted: invalid UTF-8 is reported without a column."
 },
 "C75": {
  "note": "Proved through Flocq; the statements are about integers and rationals. Refutation C75_not_nearest_refuted records that the conversion is not correctly rounded."
 },
 "C76": {
  "note": "Type checking is a judgement over the crate's own implementations and given facts (BoundSpec.implements), not rustc; bounds that syn leaves unparsed are out. The _refuted theorems state where the derived bounds fall short."
 },
 "C77": {
  "note": "Rules in ReadSpec.v, one per pairing, independent of the conversion functions except for Decimal and chrono, whose meaning is C58 and C36. Soundness, completeness, and for types without maps an exact equivalence. Key equality of maps is structural."
 },
 "C78": {
  "note": "An exact equivalence between to_sql and the inductive relation `sent` (ToSqlSpec.v). Decimal and chrono values are sent as C58 and C36 say."
 },
 "C79": {
  "note": "chrono's, std's and uuid's formatting are modelled after their documentation (Calendar.v); the offset of a zone at an instant is a parameter. Offsets with seconds (zones before standard time), years after 9999 and negative Int256 are refuted."
 },
 "C80": {
  "note": "chrono's parser is a parameter assumed to read every RFC 3339 instant; a parser meeting the assumption is constructed. Loss of zone, precision and the wrap of dates are refuted."
 },
 "C81": {
  "note": "serde_json and T's serde implementations are a parameter; a text longer than a FixedString column is cut silently and may then read as another value [C81_fixed_string_refuted]"
 },
 "C82": {
  "note": "C82_accepted, C82_columns, C82_roundtrip, C82_written, C82_read, C82_own_rows, C82_converted(_roundtrip). Findings: deny_unknown_fields either does not compile (C82_deny_unusable_refuted) or, with a flattened field, denies nothing (C82_deny_refuted)."
 },
 "C83": {
  "note": "C83_server_has_the_rows, C83_rows_come_back, C83_structs_come_back: composition of C17, C18, C45, C48, C13 and C68 against a specification of the wire format that allows every encoding (StoreSpec.v, BlockWire.v, FrameWire.v, WireSpec.v)."
 },
 "C84": {
  "note": "C84_text_read, C84_ill_formed, C84_text_written, C84_string_field, C84_string_written, C84_one_reading, C84_code_points; String::from_utf8 is std's, modelled in Utf8.v and proved equal to the table in Utf8Spec.v."
 },
 "C85": {
  "note": "Composes the session (C67), the delivery (C27), the wire format of blocks (C83) and the row API (C32). Tested against mutants of the connection's dispatch."
 },
 "C86": {
  "note": "Explicit reservations (with_capacity, vec![x; n]) are listed by Reserve.v next to the decoder of Deser.v; growth by push is not."
 },
 "C87": {
  "note": "tokio's broadcast channel is modelled after its documentation and source (position per receiver, Lagged, Closed)."
 },
 "C88": {
  "note": "The recursive reader, writer and parser of columns are repeated with the stubs in place; everything else is shared with the full build."
 },
 "C89": {
  "note": "Built on C52 (connection), C50 (migrations); the consequence for locks is C33_lost_connection_*."
 },
 "C90": {
  "note": "The naive claim, that the rows of a successful insert that can be serialized are part of it, is refuted (C90_rows_inserted_refuted). That a block without columns ends the data is ClickHouse's rule (`taken`, no_columns)."
 },
 "C91": {
  "note": "The condition on rows is needed: C91_without_rows_refuted. Bytes handed over by a serializer that panics in the middle of a column are a parameter."
 },
 "C92": {
  "note": "Findings: C92_code_refuted (unrelated exceptions mentioning the words count as taken), C92_cancelled_unlock_refuted (cancelled unlock / ended runtime leave the lock taken)."
 },
 "C93": {
  "note": "The OS number is lost: C93_os_number_refuted."
 },
 "C94": {
  "note": "The migration runner (refinery) is external; Bootstrap.v models only that it reads the history and then executes what is pending. Finding: C94_applied_twice_refuted."
 },
 "C95": {
  "note": "The absence of fairness is C95_starvation_refuted."
 },
 "C96": {
  "note": "Exact in both directions for settled structs; the panic outside that condition is C96_flattened_in_nested_refuted."
 }
}