#!/usr/bin/env python3
"""Regenerates /verif/properties.jsonl.  Edit the list below, run, commit both."""
import json, os
P = []
def p(i, title, statement, quantifier, why, anchors):
    P.append(dict(id=i, title=title, statement=statement, quantifier=quantifier, why_tests_cant=why, anchors=anchors))

S="klickhouse/src/"
p("C01","Variable-length integers survive the wire below 2^63",
  "Writing an unsigned integer v with write_var_uint and reading it back with read_var_uint returns v mod 2^63 (so every integer below 2^63 is returned unchanged, and one with the top bit set never is), consumes exactly the bytes written and leaves everything after them untouched; at most nine bytes are written, and different integers below 2^63 never share an encoding or have one encoding as a proper prefix of another. From any bytes, read_var_uint takes at most nine, up to the first below 128, and returns the number their low seven bits denote; it fails only if the bytes end too early.",
  "every integer a u64 can hold, every byte string that follows it on the stream",
  "2^64 integers times unbounded continuations; the failing region is a boundary at the top bit that sampled tests never reach",
  [S+"io.rs: read_var_uint, write_var_uint"])
p("C02","Length-prefixed strings survive the wire and are size-limited",
  "read_string returns exactly the bytes given to write_string and stops exactly at their end; a declared length above 2^30 is rejected before any payload byte is consumed, whatever follows, and a truncated payload is an error rather than a short string.",
  "every byte string, every continuation, every declared length, every truncation point",
  "unbounded strings and truncation points",
  [S+"io.rs: read_string, write_string", S+"protocol.rs: MAX_STRING_SIZE"])
p("C03","Scalar columns survive the wire",
  "For every fixed-width type (integers of 8 to 256 bits, floats by bit pattern, decimals, UUID, dates, IPs, enums) a column written by serialize_column is read back by deserialize_column as the same values, bit for bit including NaN payloads and negative zero, with exactly width*rows bytes used.",
  "every scalar type, every list of values of that type, every continuation of the stream",
  "value domains up to 2^256 and unbounded column lengths",
  [S+"types/serialize/sized.rs: SizedSerializer::write", S+"types/deserialize/sized.rs: SizedDeserializer::read"])
p("C04","Every column of every supported type survives the wire",
  "For every type the library can validate, however deeply nested (Array, Tuple, Nullable, Map, LowCardinality, geo), a column of values of that type that can be sent (C13 says which) and fits the limits on sizes is accepted by serialize_column, and deserialize_column with the same type and row count then yields the documented normal form of those values, in order, and leaves exactly the bytes that followed the column.",
  "every type of any nesting depth, every column of values of any length, every continuation of the stream",
  "recursive types and unbounded columns: tests only cover a handful of hand-written shapes",
  [S+"types/mod.rs: serialize_column, deserialize_column", S+"types/serialize/*.rs", S+"types/deserialize/*.rs"])
p("C05","FixedString and byte-array normalisation",
  "A value sent to a FixedString(n) column occupies exactly n bytes and comes back as its first n bytes cut at the first NUL, so it comes back unchanged exactly when it is at most n bytes long and has no NUL; byte arrays sent to String/FixedString columns come back as strings with those bytes.",
  "every n, every byte string, every byte array",
  "depends on the relation between n, the length and the position of NUL for arbitrary sizes",
  [S+"types/serialize/string.rs: emit_bytes", S+"types/deserialize/string.rs: StringDeserializer::read"])
p("C06","LowCardinality columns use a faithful dictionary",
  "The dictionary written for a LowCardinality column holds each distinct value once in first-occurrence order (NULL first when the inner type is Nullable), every row's index points at that row's value, the index width written is wide enough for every index, and decoding returns the rows in order.",
  "every list of values and every number of distinct values, including the 256 / 65536 / 2^32 width boundaries",
  "index width boundaries depend on the number of distinct values; a 2^32-entry column cannot be tested",
  [S+"types/serialize/low_cardinality.rs: LowCardinalitySerializer::write", S+"types/deserialize/low_cardinality.rs: LowCardinalityDeserializer::read"])
p("C07","Decoding a column yields exactly the announced number of rows",
  "Whenever deserialize_column succeeds it returns exactly as many values as rows were requested, with one exception a caller must know: a LowCardinality column whose bytes hold a header setting neither key flag may return fewer. It never returns more, for any type and bytes.",
  "every type, row count and byte string, including ones no correct server sends",
  "adversarial byte strings form an infinite space",
  [S+"types/mod.rs: deserialize_column", S+"types/deserialize/low_cardinality.rs"])
p("C08","Decoding panics on exactly the malformed columns listed",
  "For a valid type whose FixedString lengths can be addressed (below 2^63; beyond, every row panics), whatever bytes arrive, deserialize_column returns values or an error; it panics exactly when the column holds decreasing array offsets, map offsets beyond the last one, or a map/array whose inner columns come back short (a specification on the bytes, column_panics), and types without offset encodings never panic.",
  "every type, row count and byte string",
  "a single malformed byte string out of infinitely many suffices to violate it",
  [S+"types/deserialize/array.rs: read", S+"types/deserialize/map.rs: read", S+"types/deserialize/nullable.rs: read"])
p("C09","Decoding is local to the column and terminates",
  "deserialize_column always terminates; the bytes it leaves are a suffix of the bytes it was given; and when it succeeds, appending more bytes to the stream changes neither the values nor the number of bytes consumed, while a strict prefix of the consumed bytes never decodes successfully to a different column of the same length.",
  "every type, row count, byte string and extension",
  "termination and locality are statements about all inputs",
  [S+"types/mod.rs: deserialize_column", S+"types/deserialize/low_cardinality.rs: while limit > 0"])
p("C10","Oversized counts are rejected before work is done",
  "A row count above 2^30, at the top level or for any nested array, map or dictionary, is answered with an error no matter what bytes follow.",
  "every type, every count above the limit, every continuation",
  "counts are attacker-controlled 64-bit numbers",
  [S+"types/mod.rs: deserialize_column (MAX_STRING_SIZE check)"])
p("C11","Type names survive printing and parsing",
  "Parsing the text printed for a type gives that type back, for every type whose enum variant names avoid the characters the parser treats specially, at any nesting depth.",
  "every type of any depth, every enum variant list, every decimal scale and string size",
  "unbounded nesting and arbitrary Unicode variant names",
  [S+"types/mod.rs: Type::from_str, Display for Type, parse_args, eat_identifier, parse_enum_variant"])
p("C12","When the type parser panics",
  "Type::from_str terminates on every text. It panics exactly on the texts in which an argument list closes a parenthesis it did not open (at any depth the parser reaches), or a quoted time zone or enum variant name is a single quote character; every other text gives a type or a type-parse error.",
  "every Unicode text",
  "infinite input space; the violating inputs are odd one-character arguments and stray parentheses",
  [S+"types/mod.rs: parse_args, parse_enum_variant, Type::from_str"])
p("C13","Which validated values can be sent, and come back",
  "A column of values accepted by validate_value is either written or writing it panics, never an error. It is written if and only if no tuple in it is longer than its type, every map has as many keys as values and no NULL goes to a Nullable geo type; reading the bytes returns the column if moreover no tuple is shorter than its type, and (for types with no LowCardinality column directly inside a tuple) only then. Validation checks none of these three conditions.",
  "every type and every value accepted by validation",
  "interaction of a recursive validator with a recursive serializer over all values",
  [S+"types/mod.rs: validate, validate_value, inner_validate_value", S+"types/serialize/*.rs"])
p("C14","Rejecting a value is an error unless the value cannot be rendered",
  "validate_value on any type and value returns Ok or an error; it panics exactly when the value is rejected by a valid type and rendering it for the error message panics (a negative-scale or 256-bit decimal, an out-of-range date or time, at any depth). A value that is accepted is never rendered.",
  "every type and value",
  "the error message formats the value, so it depends on all reachable values",
  [S+"types/mod.rs: validate_value", S+"values/mod.rs: Display for Value"])
p("C15","Which default values belong to their type and can be sent",
  "The default value of a type is zero, empty or NULL with the parameters of the type (member by member for tuples). For a valid type (with FixedString lengths below 2^63) it is accepted by that type's own validation if and only if every enum it contains has a variant with value 0 and then comes back unchanged from the wire, except for types holding a Nullable geo, whose default panics when sent.",
  "every valid type at any depth",
  "unbounded nesting; enums have no guaranteed zero variant",
  [S+"types/mod.rs: default_value, inner_validate_value"])
p("C16","Blocks survive the wire",
  "A block with distinct column names, columns of the declared length and valid types that is written with Block::write is read back by Block::read with the same row count, the same column names in the same order, the same types and the same (normalised) data, leaving what follows untouched.",
  "every number of columns and rows, every type and value, every continuation of the stream",
  "unbounded blocks; depends on composing every column codec",
  [S+"block.rs: Block::read, Block::write"])
p("C17","Block metadata on the wire",
  "The bucket number written with a block is read back unchanged and nothing else is consumed; the overflow flag is always read back set, so it survives exactly when it was set. Whatever known fields a server sends, in any order, are read, the last of each kind counting, and an unknown field is an error.",
  "both flags, every 32-bit bucket number",
  "the bucket number ranges over 2^32 values; the flag bug is in the encoding, not in a branch a test exercises",
  [S+"block.rs: BlockInfo::read, BlockInfo::write"])
p("C18","A block with ragged columns is never sent",
  "Block::write fails whenever a column's number of values differs from the block's row count, and whenever it succeeds every column written has exactly the declared rows.",
  "every block",
  "any column of any block could be the offending one",
  [S+"block.rs: Block::write"])
p("C19","Row iteration is column transposition",
  "For a block with at least one column, iterating over its rows yields exactly the declared number of rows, the i-th row holding, for each column in order, the column's name and its i-th value; the borrowing, taking and consuming iterators agree (the taking one panics exactly if the claimed number of rows, 56 bytes each, cannot be addressed, which no received block with a column claims). In a block put together by the user, data for a column without a type make the taking and the consuming iterator panic, and nothing else does. With columns of different lengths the rows stop at the shortest column.",
  "every block with consistent columns",
  "unbounded rows and columns",
  [S+"block.rs: iter_rows, take_iter_rows, into_iter_rows"])
p("C20","Compressed frames survive the wire in any chunking",
  "A block payload sent compressed is recovered exactly by the decompressing reader, for any split of the payload into frames and any sequence of read sizes, provided the compressor's inverse law holds.",
  "every payload, every split into frames, every sequence of read buffer sizes",
  "chunk boundaries and read sizes are chosen by the network",
  [S+"compression.rs: compress_block, decompress_block, DecompressionReader", S+"internal_client_out.rs: send_data"])
p("C21","Corrupted compressed frames are rejected",
  "A frame whose stored checksum differs from the checksum of its header and payload, whose method byte is not LZ4 or whose size is out of bounds is reported as an error and no byte of it is delivered.",
  "every byte string presented as a frame, every corruption",
  "all possible corruptions of all frames",
  [S+"compression.rs: decompress_block"])
p("C22","Quoted string arguments cannot break out of their literal",
  "Rendering a string value as a query argument gives a plain-ASCII single-quoted literal that the ClickHouse string lexer reads back as exactly the original bytes, ending at the closing quote, whatever text follows; only if another quote follows immediately do the two literals run together, and even then the original bytes come out unchanged and none of them is read as query text.",
  "every byte string, every text following it",
  "injection safety quantifies over all attacker-chosen strings",
  [S+"values/mod.rs: escape_string, Display for Value"])
p("C23","Argument substitution is single-pass and positional",
  "Substituting n arguments into a query fills in a template that depends on the query and n only: $1..$n are replaced by the renderings of the corresponding arguments, $$ by a dollar sign, all other text is unchanged, and the text of an argument is never interpreted again. The builder returns the first failed argument and panics exactly if a placeholder refers to a value that cannot be rendered.",
  "every token sequence and every query text under any lossless tokenization, every argument list",
  "all queries and all arguments, including arguments that look like placeholders",
  [S+"query_parser.rs: parse_query_arguments", S+"query/mod.rs: QueryBuilder::finalize"])
p("C24","Statement splitting loses nothing",
  "Splitting a script yields, in order, the text between separator tokens, each trimmed of white space only and each ending in its semicolon except possibly the last; nothing but blank pieces is dropped, and text that is not a separator token (literals, comments) never splits.",
  "every token sequence and every script under any lossless tokenization",
  "all scripts",
  [S+"query_parser.rs: split_query_statements"])
p("C25","Decimal arguments are rendered with their value exactly when they have enough digits",
  "The text rendered for a decimal of scale p and raw value x denotes x/10^p exactly when x = 0 or |x| >= 10^(p-1); all smaller magnitudes are rendered as another number or as no number at all (a defect).",
  "every scale and every raw integer",
  "fails only for small magnitudes relative to the scale and for negatives",
  [S+"values/mod.rs: Display for Value (Decimal32/64/128)"])
p("C26","Select builder renders every clause once and in order",
  "The text built by the select builder is the requested clauses in SQL order, each list in the order of the calls, set-once clauses taking their last call, clauses never requested omitted; the first failing sub-expression in that order is returned as the error; DISTINCT and DISTINCT ON exclude each other with the last call winning.",
  "every sequence of builder calls",
  "exponentially many combinations of optional clauses",
  [S+"query/select.rs"])
p("C27","Responses reach the query that asked",
  "With any number of concurrent requests on one connection, queries are sent in request order, at most one is in flight, every data block the server sends while query q is in flight is delivered to q's caller in order, and to nobody else.",
  "every interleaving of requests and server packets",
  "unbounded interleavings of callers and server",
  [S+"client.rs: InnerClient::handle_request, dispatch_query, receive_packet"])
p("C28","A failing query does not disturb the others",
  "A server exception ends exactly the query in flight (its caller sees that one error and then end of stream), and the next queued query is then sent.",
  "every interleaving in which exceptions arrive",
  "any position of the exception in any queue state",
  [S+"client.rs: receive_packet (Exception, EndOfStream)"])
p("C29","No query is forgotten",
  "While the connection lives, if no query is in flight then none is waiting; every accepted query is eventually in flight once the earlier ones finish, and when the connection ends every caller still waiting sees its stream end.",
  "every interleaving",
  "liveness bookkeeping over all histories",
  [S+"client.rs: InnerClient::run, handle_request, receive_packet"])
p("C30","Which server bytes are lost when requests arrive",
  "However the bytes of the server arrive, the client decodes them packet by packet with nothing lost as long as no request is taken while a packet is half read; each request taken then makes it forget exactly the half already read and go on decoding behind it. Every such loss happens under some schedule.",
  "every arrival schedule of bytes and requests",
  "depends on the exact moment a request arrives relative to the bytes of a packet",
  [S+"client.rs: run_inner (select!)"])
p("C31","Inserted rows are sent exactly and in order",
  "insert_native_block sends, between the insert query and the final empty block, one data block per non-empty batch holding exactly that batch's rows in order, with values validated against the server's column types; empty batches are skipped. (Rows that can be serialized; see C56 for the others.)",
  "every sequence of batches and rows",
  "unbounded batches; failure of one row interacts with the block's declared row count",
  [S+"client.rs: insert_native, insert_native_block"])
p("C32","Query results preserve rows and errors",
  "query yields, in order, one item per row of each data block followed by the errors; query_collect, query_one, query_opt and execute agree with that stream.",
  "every sequence of blocks and errors",
  "all result streams",
  [S+"client.rs: query, query_collect, query_one, query_opt, execute"])
p("C33","Cluster lock is mutually exclusive",
  "As long as nobody resets a lock and no client loses its connection while it waits for the answer to an attempt at it, at most one client holds it at any time; in any case at most one holds it with a living connection (a client that loses its connection while waiting is given the lock although another has it); an attempt is granted exactly if nobody is responsible for the lock; releasing makes it available; a refused attempt leaves every table and every other client as it was (lock waits 100 ms and retries, try_lock returns none); locks with different names do not interfere. The statements sent are, as the server reads them, a CREATE or DROP of exactly the lock's table, for every lock name that is a plain identifier (not for every name). An attempt abandoned between its CREATE and the answer leaves the lock taken for good.",
  "every interleaving of sending, executing and answering the statements of lock, try_lock, unlock and drop by any number of clients, with failures, abandoned calls and lost connections",
  "unbounded interleavings of distributed clients",
  [S+"lock.rs: ClickhouseLock::try_lock, lock, unlock, reset"])
p("C34","Concurrent migrators run one at a time, until one has waited for a minute",
  "As long as no migrator has waited for the cluster lock for more than 60 seconds and nobody resets the lock, at most one migrator with a living connection executes migrations at a time. A migrator that has waited longer takes the lock from the one that is running and both execute; when one of these ends, it releases the other's lock, and a third can start at once.",
  "every interleaving, every number of migrators, every duration of migrations",
  "needs a schedule with a holder running longer than a minute",
  [S+"migrate.rs: ClusterMigrator"])
p("C35","Progress accumulation is a commutative monoid",
  "Adding progress reports gives the same totals in any order and grouping, with the default report as identity; per-query accumulation equals the sum of the increments.",
  "every multiset of progress reports without 64-bit overflow",
  "all orders and groupings",
  [S+"progress.rs: Progress, Add"])
p("C36","Calendar conversions are inverse on the representable range",
  "Converting a Date, DateTime or DateTime64 to chrono and back is the identity, and the chrono instant is exactly the one denoted; in the other direction instants are truncated to the precision of the type. A DateTime or DateTime64 before the epoch or a DateTime beyond 2106 is reported as an error; a Date outside 1970-01-01..2149-06-06 is silently wrapped, a DateTime64 beyond 64 bits and any precision above nine panic.",
  "every date, every instant, every zone, every precision",
  "2^64 instants times 18 precisions; the failing precisions are accepted by validation",
  [S+"values/date.rs"])
p("C37","256-bit integers",
  "Conversions between i256/u256 and pairs of 128-bit words are mutually inverse and preserve the value; i256 and u256 convert into each other keeping the value modulo 2^256; comparison of u256 is numeric, and comparison of i256 is numeric exactly between numbers of the same sign; the hex rendering denotes the unsigned value of the bits.",
  "every 256-bit value",
  "2^256 values",
  [S+"values/int256.rs"])
p("C38","Fixed-point numbers decompose exactly",
  "For fixed-point values integer() and fraction() recompose to the raw value with a fraction below the modulus and the signs of the value; they are defined exactly for the precisions the width can hold (9, 18, 38 digits) and panic above.",
  "every raw value, every width and every precision",
  "domain up to 2^127 and 38 precisions",
  [S+"values/fixed_point.rs"])
p("C39","Row access by index and name",
  "On a raw row, reading a column by position, or by name (the first unread column of that name), returns the conversion of the stored value once and leaves the other columns alone; a second read is an error for ever, whatever is read or set in between; unknown names and positions beyond the end are errors, except the position exactly at the end, which panics; setting replaces a column of the same name or appends; a row is only serialized if nothing was taken from it, otherwise it panics.",
  "every sequence of get, set and take operations on every row",
  "histories of unbounded length; the violating index is exactly the row length",
  [S+"convert/raw_row.rs"])
p("C40","Server packets are decoded per protocol revision",
  "Each packet id 0..13 except 10 is decoded to the corresponding packet with the fields the negotiated revision carries, consuming exactly the packet, however the bytes were split; any other id is an error; the log packet (10) panics. From a hello, an optional field is read only if the server's revision is later than the one that introduced it, so a server of exactly revision 54058, 54372 or 54401 leaves one field unread in front of the next packet, and no other server does. An exception announcing a nested exception is returned without reading the nested one.",
  "every packet, every revision, every continuation, every byte string",
  "all revisions times all packets",
  [S+"internal_client_in.rs: receive_packet", S+"protocol.rs"])
p("C41","Query packets match the negotiated revision",
  "The bytes sent for a query contain exactly the fields the server of that revision reads, in order, so that a server following the protocol recovers the query id, settings, stage, compression flag and text.",
  "every revision, every query",
  "all revisions times all queries",
  [S+"internal_client_out.rs: send_query"])
p("C42","Column rename rules",
  "Every rename_all rule of the derive macro joins the words of the field name (the parts between underscores) in its convention: SCREAMING_SNAKE_CASE and UPPERCASE upper-case them, kebab-case joins with '-', PascalCase capitalizes and concatenates, camelCase also lower-cases the first letter; snake_case and lowercase leave the name as it is. A rule fails (at compile time) only for camelCase, and exactly when the name has no word or its first word starts with a non-ASCII character. Two different lower-case field names get different columns under every rule except PascalCase and camelCase. Exactly the documented rule names are accepted.",
  "every field name, every rule",
  "all identifiers, including ones with leading or doubled underscores",
  ["klickhouse_derive/src/case.rs: RenameRule::apply_to_field"])
p("C43","Derived rows are matched by name, then by position",
  "For a derived struct with plain, nested, flattened, defaulted and skipped fields: columns that represent a value of it are read as that value whatever their order; what serialize_row writes has the declared column names and is read back as the same value in any column order. A struct of plain fields is read exactly when each field gets one column that converts, or none and has a default, a column belonging to the field of its name and otherwise to the field of its position; a second column for a field is an error. The same exact description holds for structs with nested fields at any depth (without flattened ones): a column belongs to the nested field whose name and a dot it begins with, otherwise to the field of its position, a nested field counting for as many positions as its struct has columns; the columns of a nested field must be at least one and equally long arrays. With flattened fields, to any depth, beside plain and nested ones (no two flattened fields asking for one column, no flattened field inside a nested one) and columns of different names: a row is read exactly when the columns asked for by the flattened fields are all there, each flattened struct is read from its own, and the other fields, matched by name only, are read from what is left: plain ones from their column or a default, nested ones as above. A field that is written but not read, directly before one that is both, makes the struct's own rows unreadable. Reading never panics if no field is of a chrono type, no conversion of the user's panics, nested structs demand a column and contain no flattened field, and no two flattened fields ask for the same column (without these it can).",
  "every struct declaration, every value, every permutation of columns; for plain, nested and flattened structs every sequence of columns",
  "factorially many column orders",
  ["klickhouse_derive/src/row.rs"])
p("C44","Rust values survive conversion to and from SQL values",
  "For every Rust type built from the supported scalars, strings, byte strings, options (not directly nested), vectors, arrays, boxes, tuples and maps, every column type it is stored in and every value the column can represent: to_sql with the column type as hint succeeds, the column accepts the result, from_sql returns the original value, and the same holds through serialization and deserialization of a whole column. Reading any column value into any such type (except chrono date-times) or one of the user's never panics, unless the user's own conversion does. The excluded pairings (nested options, VecTuple over LowCardinality, byte vectors in String or Array(String), a UInt8 taken for Int8) really fail.",
  "every Rust type, column type, value and column length",
  "unbounded values; nested options collapse",
  [S+"convert/std_serialize.rs", S+"convert/std_deserialize.rs"])
p("C45","Equality and hashing of values",
  "Equality of values is symmetric and transitive; a value equals itself exactly if it contains no NaN geo coordinate; two equal values hash alike exactly if their geo coordinates have the same bits. So for values without geo parts equality is identity and compatible with hashing, and they can be dictionary keys; with geo parts the hash law fails for signed zeros and reflexivity for NaN.",
  "every pair and triple of values",
  "violations involve NaN coordinates and signed zeros",
  [S+"values/mod.rs: PartialEq, Eq, Hash", S+"values/geo.rs: Point"])
p("C46","Rendering containers as query arguments",
  "Arrays, tuples and maps of integers, enums, strings and NULL, however nested, are rendered as literals that parse back to the same value exactly when no tuple has one element; a one-element tuple comes back as its element (a defect). Different values never have the same text.",
  "every nesting depth, every element",
  "unbounded nesting with attacker-chosen strings",
  [S+"values/mod.rs: Display for Value"])
p("C47","Column prefixes match",
  "The prefix bytes written before a column of a valid type are exactly those the reader consumes for that type. The reader accepts no other prefix: a dictionary of another version is an error.",
  "every valid type at any depth",
  "unbounded nesting; writer and reader recurse differently",
  [S+"types/mod.rs: serialize_prefix, deserialize_prefix", S+"types/serialize/nullable.rs", S+"types/deserialize/nullable.rs"])
p("C48","Progress events belong to the running query",
  "Every progress packet received while a query is in flight is published with that query's id; progress received when nothing is in flight is not attributed to any query.",
  "every interleaving",
  "unbounded interleavings",
  [S+"client.rs: receive_packet (Progress)"])
p("C49","Insert data goes out with its own query until the server ends it",
  "A data block submitted for an insert is sent while that insert is the query in flight if and only if the server has not ended the insert before; if it has (an exception while the caller was still producing), the block is sent all the same, on the idle connection or in the middle of whatever query is in flight by then. No data block is sent before its query.",
  "every interleaving of inserts, other queries and server exceptions",
  "needs an exception to arrive between two data blocks",
  [S+"client.rs: handle_request (SendData), insert_native"])
p("C50","Migration scripts run statement by statement under the lock, and history rows are read by name",
  "Executing migration queries takes the lock, runs the non-blank statements of every query exactly once each in order, each only after the previous one succeeded, stops at the first failing statement, releases the lock after success and after failure, and returns the number of queries; on a cluster the placeholders %DATABASE% and %CLUSTER% are filled in (for database names without such a placeholder); a history row is read exactly if its columns are version, name, applied_on and checksum in some order, each of a readable type and content; otherwise it is an error, never a panic. The statements that create and drop the lock table are those of the lock named refinery_exec.",
  "every list of scripts, every sequence of server answers, every template, every permutation and every set of columns",
  "all scripts, failure points and column orders",
  [S+"migrate.rs: AsyncTransaction::execute, Row for Migration"])
p("C51","Blocks are decoded locally and truncation is noticed",
  "Block::read terminates on every input; what it leaves is a suffix of what it was given; the bytes after a block never influence it; and a block cut short anywhere is never accepted.",
  "every byte stream, every revision",
  "quantifies over all byte streams and all cut points",
  [S+"block.rs: Block::read, BlockInfo::read"])
p("C52","A result that ends while the connection lives is complete; a lost connection ends it silently",
  "A caller that has read its result stream to the end has received everything the client received for its query. If the connection lives, the server has ended the query and the result is complete. If the connection ends first (a read or write error, the last handle dropped), the stream still ends without an error item, whatever is missing.",
  "every interleaving, every moment at which the connection breaks or the last handle is dropped",
  "quantifies over all failure points of all executions",
  [S+"client.rs: run_inner, run, query_raw, receive_packet"])
p("C53","A caller holds up the others exactly while 32 of its results are unread",
  "A caller keeps the other queries of its connection from making progress only while its stream is alive and holds 32 unread items; reading one item or dropping the stream lets the connection go on, and until then nothing at all is sent on the connection, whatever the other callers and the server do.",
  "every interleaving; results of any number of blocks",
  "needs a result longer than the channel and an unread stream",
  [S+"client.rs: dispatch_query, receive_packet (Data, Exception)"])
p("C54","A successful insert has handed all its blocks to the connection, and no more",
  "If an insert returns Ok then one block for every non-empty batch and the final empty block were handed to the connection in order. If it fails, nothing was handed over when the server sent no header block, and otherwise exactly the blocks of the batches before the first one that cannot be made into a block. Whether the server accepted them is not part of it: an exception the server answers with after the insert has returned reaches neither this caller nor any other.",
  "every row type, every sequence of batches, every interleaving, every server answer",
  "needs an exception that arrives after the last block was sent",
  [S+"client.rs: insert_native"])
p("C55","A failed insert holds the connection until the server ends the query",
  "If an insert fails because of a value it was given, no final block is sent (as long as every batch has a row with a value; C90 is about the others); as long as nobody sends one and the server ends the query only after having received it, the insert stays in flight and no query submitted later on that connection is sent.",
  "every batch, every later schedule in which the server waits for the data it was promised",
  "quantifies over all later schedules",
  [S+"client.rs: insert_native, handle_request"])
p("C56","A row that cannot be serialized ends the connection with its batch",
  "When some rows of a batch cannot be serialized and others can, insert_native logs that it skips them but still counts them: the batch's block cannot be written, none of its rows reaches the server and the connection ends. (The log message promises the opposite.)",
  "every batch with at least one failing and one good row",
  "quantifies over all batches and connection states",
  [S+"client.rs: insert_native", S+"block.rs: Block::write"])
p("C57","Rendering a value panics only for listed values",
  "Rendering a value as query text panics exactly if it contains a 256-bit decimal, a map with different numbers of keys and values, or a DateTime64 with more than nine decimals or beyond the range of chrono; otherwise it gives a text.",
  "every value, however nested",
  "all values, unbounded nesting",
  [S+"values/mod.rs: Display for Value"])
p("C58","Decimals keep their number",
  "Converting a rust_decimal number to a column value of any decimal width and precision, or an integer or decimal column value to a rust_decimal number, yields the same number or is refused; reading accepts exactly what 96 bits and 28 decimals can hold; sending panics only when the column wants 39 or more digits beyond the scale.",
  "every decimal, every column type and value",
  "all mantissas, scales and precisions",
  [S+"values/decimal.rs: FromSql for Decimal, ToSql for Decimal, mantissa_to_scale"])
p("C59","Inferring a type from a value",
  "Guessing the type of a value never returns an error; it panics exactly if one of the values that decide the type (the value itself, the first element of an array or of a map's keys or values, every component of a tuple) is an enum; and for a value of a type without NULLs, encodings, fixed lengths and enums, with no empty array or map inside, the guess is that very type; in general NULL is taken for a nullable string, arrays and maps go by their first elements (by strings if they have none) and tuples by all components. (With an empty first element the guess can be a type that does not accept the value.)",
  "every value of any nesting depth",
  "unbounded nesting; the failing cases are combinations of nesting and emptiness",
  ["klickhouse/src/values/mod.rs: guess_type", "klickhouse/src/convert/raw_row.rs: set"])
p("C60","Decoded values are of their column's type, whatever the bytes",
  "Whatever bytes the peer sends, if decoding a column succeeds then every value in it has the variant its column type names, at every level of nesting (NULL only under Nullable, map keys and values paired), and every number is within its machine type; so reading decoded values into any Rust type other than chrono date-times gives a value or an error, never a panic.",
  "every type, row count, byte sequence and Rust type",
  "arbitrary hostile bytes and unbounded nesting",
  ["klickhouse/src/types/deserialize/*.rs", "klickhouse/src/convert/std_deserialize.rs"])

p("C61","Column data follows the Native format",
  "Every column encoding the Native format allows (any dictionary contents and order, any index width, several dictionaries, anything under NULLs, sizes up to 2^30) is decoded to exactly the values it stands for, consuming exactly its bytes; so is a LowCardinality column with a dictionary shared between chunks, a chunk's own keys coming before the shared ones; what is sent for sendable values of a valid type is such an encoding of those values, and the column prefix likewise; a FixedString is sent as its first n bytes followed by NULs.",
  "every column type, every list of values, every encoding of it",
  "all types and all encodings a foreign peer may choose, not only those this library writes; a round trip through the library's own writer cannot see symmetric mistakes",
  ["klickhouse/src/types/serialize/*.rs", "klickhouse/src/types/deserialize/*.rs"])
p("C62","Blocks follow the Native format",
  "Every block laid out as the Native format says (info fields in any order, counts, then name, type, prefix and data per column) with distinct column names is read to exactly its contents; what is sent for a well-formed block is laid out that way.",
  "every protocol revision, every block of any number of columns and rows",
  "all encodings a foreign peer may choose",
  ["klickhouse/src/block.rs: Block::read, Block::write"])
p("C63","Compressed frames follow the documented layout",
  "A frame is: 128-bit CityHash of what follows, high word first; method byte 0x82; compressed size including the 9 header bytes; uncompressed size; compressed bytes. Every such frame is read to its payload, consuming exactly the frame, and what is sent for a payload is such a frame.",
  "every payload below 4 GiB whose frame is at most 1 GiB, every way of compressing it",
  "all payloads and all compressors",
  ["klickhouse/src/compression.rs: read_compressed_blob, compress_block", "klickhouse/src/internal_client_out.rs: compress_data"])

p("C64","Attributes of the Row derive are applied as documented or reported",
  "The derive macro accepts a declaration exactly if it is a struct with named fields whose klickhouse attributes are known and well-formed, nothing is said twice and not both from and try_from are given. Then the struct and each field have exactly the settings written in the source, and each column is named by rename or, without it, by the field's name under the rename_all rule. (Values that are not literals and rename on a struct are accepted and ignored.)",
  "every struct declaration, every list of attributes on it and on its fields",
  "unboundedly many declarations; trybuild tests only a few",
  ["klickhouse_derive/src/attr.rs: Container::from_ast, Field::from_ast", "klickhouse_derive/src/ast.rs", "klickhouse_derive/src/ctxt.rs", "klickhouse_derive/src/check.rs"])
p("C65","Shapes of geo_types survive the database",
  "Points, coordinates and line strings converted to ClickHouse values and back are unchanged. A (multi)polygon comes back unchanged exactly if its rings are closed, which holds for every polygon made of rings that begin with a number; read polygons are closed by repeating the first point. The same holds through a column of the wire format.",
  "every shape of any number of rings and points, including NaN coordinates",
  "all coordinates and all shapes",
  ["klickhouse/src/values/geo.rs: From impls", "klickhouse/src/convert/std_serialize.rs"])
p("C66","What a connection pool may rely on",
  "A connection reported broken stays broken, sends nothing more, accepts no query, and leaves nobody waiting; one that is not reported broken takes the next query. A connection handed out by connect and not broken has had its settings query and prequel completed by the server without an exception. The validity check succeeds exactly if the first row of the answer holds text.",
  "every reachable connection state and every continuation, every answer of the server",
  "all interleavings of callers, server packets and failures",
  ["klickhouse/src/manager.rs: ConnectionManager", "klickhouse/src/client.rs: is_closed, start, query_one, execute"])

p("C67","A session on the wire, from the first byte to the last",
  "Until the server has greeted, the client writes nothing but its hello with the caller's database, user and password, and nobody is given a result stream. Afterwards a server of the revision announced in the greeting reads from the client's bytes exactly the queries and data blocks that were sent, in order, nothing else and nothing left over; the queries are the first ones submitted, in submission order. The packets the connection handles are those of the server's byte stream after the greeting, in order, provided no request is taken in the middle of a packet. connect succeeds only after the greeting and after its settings query was sent.",
  "every interleaving of callers, arriving bytes cut anywhere, requests, blocked deliveries, write failures and broken sockets; every server revision; with and without compression",
  "all schedules and all ways the bytes are cut into reads",
  ["klickhouse/src/client.rs: run_inner, dispatch_query, handle_request, receive_packet, start", "klickhouse/src/internal_client_in.rs: receive_hello, receive_packet", "klickhouse/src/internal_client_out.rs: send_hello, send_query, send_data"])

p("C68","What value validation accepts",
  "insert_native accepts a value for a column exactly if the column's type is valid (decimal and DateTime64 parameters from 1 up to their width, LowCardinality over (nullable) strings, integers, dates and addresses, no Nullable of a composite type, map keys of the listed kinds, recursively) and the value belongs to the type (same kind and parameters; NULL only under Nullable; byte arrays for strings; UInt8 for Int8; enum values among the variants; elements of arrays, tuples and maps recursively).",
  "every type and every value, however nested",
  "infinitely many types and values",
  ["klickhouse/src/types/mod.rs: validate, validate_value, inner_validate_value", "klickhouse/src/client.rs: insert_native"])

p("C69","The language of type names",
  "Type::from_str accepts exactly the texts of the type grammar - an identifier, optionally followed by arguments in parentheses separated by commas outside parentheses, with white space allowed around every part but not in front of the whole - and gives each its meaning: no text means two types, trailing white space and a trailing comma do not matter, and no text of the language makes the parser panic. Types the server knows but the grammar lacks (named tuple elements, Date32, Nested, aggregate states) are refused.",
  "every Unicode text and every type, at any nesting depth",
  "the language is infinite and ambiguity or a wrongly accepted text shows only on particular nestings",
  [S+"types/mod.rs: Type::from_str, parse_args, eat_identifier, parse_enum_variant"])

p("C70","Every query is answered",
  "On a connection that does not break, with a server that ends every query it is sent and callers that read or drop their results, every query submitted is eventually sent and ended, and a caller that keeps reading comes to the end of its stream having read exactly what the server answered to its query - however many callers there are, in whatever order they submit, and however often the task is held up by a full channel.",
  "every infinite execution of callers, task and server in which the task is run when it can go on",
  "liveness speaks about infinite executions and all fair schedules",
  ["klickhouse/src/client.rs: run_inner, handle_request, receive_packet, dispatch_query, query_raw"])

p("C71","What is inserted is what a query reads",
  "Rows inserted with insert_native, in any number of batches and under any header whose columns they have (in any order), go out as blocks whose payloads, sent back by the server in data packets of any table name, are read by query_collect as exactly those rows in order - for any row type whose rows are recovered from their values, in particular for derived structs whose field types fit the columns, with and without compression.",
  "every header, every row type and every batch of rows within the wire's size limits, every table name, every server revision, with and without compression",
  "the composition of conversion, blocks, compression, packets and row deserialization ranges over all types, values and batch splits",
  ["klickhouse/src/client.rs: insert_native, query, query_collect", "klickhouse/src/block.rs: Block::write, Block::read, take_iter_rows", "klickhouse/src/internal_client_out.rs: send_data", "klickhouse/src/internal_client_in.rs: receive_data", "klickhouse_derive/src/row.rs"])

p("C72","Here-documents",
  "In a query, a here-document is a tag, everything up to the next occurrence of that very tag, and the tag again; the text after it follows unchanged, and a tag that does not occur again starts no here-document. Reading one never panics. Semicolons and placeholders inside a here-document are plain text: they neither split the script nor take an argument.",
  "every text, for any way of recognising tags that splits its input in two",
  "documents may contain anything, including parts of the tag and things that look like placeholders",
  [S+"query_parser.rs: parse_heredoc, Token::HereDoc"])

p("C73","Arguments cannot change the structure of a query",
  "As the server's lexer sees it, a query sent with arguments is the query text with each placeholder replaced by the tokens of its argument: whatever values are given - strings with quotes, semicolons and comment signs, nested arrays, maps, dates - an argument never ends a quoted text, starts a comment, leaves a bracket open or adds a statement, and a string argument is one literal with exactly its bytes. This needs the placeholder to stand between separators and outside quotes; a negative number directly after a minus sign does start a comment, and two string placeholders next to each other are read as one string (defects).",
  "every query, every number and choice of argument values of every type",
  "injection depends on the adversarial choice of values and on where the placeholder stands",
  [S+"query_parser.rs: parse_query_arguments", S+"values/mod.rs: Display for Value, escape_string"])

p("C74","A row that cannot be read is explained",
  "When a derived struct cannot be read from a row, the error is one of a fixed list and says what is wrong: a conversion error carries the name of the field whose column does not convert, a duplicate-field error names a field that two columns are for, a missing-field error names a field that has neither a column nor a default; errors about nested fields carry the name of the received column that is no array. For structs of plain fields the accusation is always true, and every row is either read or so explained; the latter also holds for nested and flattened fields under the conditions of C43 for not panicking. Two errors do not name a column: invalid UTF-8 in a String column, and a missing column of a flattened field.",
  "every struct declaration, at any depth of nesting and flattening, and every list of columns, with any types and values",
  "the name in an error is only seen to be wrong on the combination of struct, column order and values that produces it",
  ["klickhouse_derive/src/row.rs", "klickhouse/src/errors.rs: KlickhouseError, with_column_name", "klickhouse/src/convert/mod.rs: unexpected_type", "klickhouse/src/convert/std_deserialize.rs"])

p("C75","A fixed-point number converts to a double close to it, in order",
  "Converting FixedPoint32/64/128<P> to f64 gives, for every value and every P with 10^P in range, a finite double whose relative distance from the decimal number is at most 3, 4 or 5 times 2^-53 (so it has the right sign and is zero only for zero); a larger number never gives a smaller double, and up to 2^49 units a strictly larger one gives a strictly larger double; whole numbers up to 2^53 are exact, and so is every number that is itself a double when its units fit 53 bits and P <= 22. It panics exactly when 10^P does not fit the integer type. It is not always the nearest double: 1.14 becomes 1.1400000000000001.",
  "all values of the three widths and all precisions",
  "double rounding errors depend on every bit of 2^32..2^128 values; monotonicity above 2^53 hangs on ties-to-even; tests compare a few literals",
  ["klickhouse/src/values/fixed_point.rs: From<FixedPoint32> for f64, From<FixedPoint64> for f64, From<FixedPoint128> for f64, integer, fraction, modulus"])

p("C76","Deriving Row for a generic struct",
  "For every generic struct, the implementation that #[derive(Row)] writes has the struct's parameters in their order without defaults, and its where clause is the struct's own, then the fields' bound attributes, then the struct's bound attribute or, without one, FromSql + ToSql for exactly the type parameters used inside the types of fields that are sent in the ordinary way (outside PhantomData), plus the associated types T::X that are types of such fields. For those fields these bounds are enough: whatever the conversions need and would be found with both traits on every parameter is found. Self in field types, bounds, where clauses and array lengths is replaced by the struct with its own parameters. It is not true that the generated code always compiles: a field received but not sent in the ordinary way, a flattened parameter, a Vec of a parameter that is not 'static, PhantomData, and a nested field whose element mentions a parameter all ask for something that the generated bounds do not give.",
  "every struct declaration: parameters, where clause, field types of any depth and attributes; every set of implementations known from elsewhere",
  "the bounds are computed by a traversal of arbitrary type syntax; a test fixes one declaration, and a missing or superfluous bound shows only when some other crate uses the derive",
  ["klickhouse_derive/src/bound.rs: with_bound, without_defaults, with_where_predicates, with_where_predicates_from_fields", "klickhouse_derive/src/receiver.rs: replace_receiver", "klickhouse_derive/src/row.rs: build_generics, needs_serialize_bound, unwrap_vec_type, expand_derive_serialize", "klickhouse/src/convert/std_serialize.rs", "klickhouse/src/convert/std_deserialize.rs"])

p("C77","What reading a value into a Rust type gives",
  "For every Rust type, column type and value, FromSql either fails or returns the value the documented pairing gives: numbers, dates, addresses, UUIDs and shapes with the same content; fixed-point numbers and DateTime64 with the Rust type's own precision; bool is true exactly when the number is not 0; a String has exactly the characters whose UTF-8 encoding the bytes are; Bytes and Vec<u8>/Vec<i8> keep the eight bits of every element; Vec, [T; N], tuples and VecTuple hold the components in order, each read by its own type, LowCardinality being transparent; an Option is None exactly for NULL; a map has every key once, with the value that key has last. And whenever the pairing gives a value, the read succeeds.",
  "all Rust types built from the leaf types, bool, String, Bytes, Value, Decimal, chrono, Vec, arrays, VecTuple, Option, Box, tuples and maps to any depth, all column types, all values",
  "the type pairs nest to any depth and the values are unbounded; the round-trip tests cannot see a value that is written by another client (a bool stored as 2, a map with a repeated key)",
  ["klickhouse/src/convert/std_deserialize.rs: FromSql impls", "klickhouse/src/convert/vec_tuple.rs: VecTuple", "klickhouse/src/values/bytes.rs: Bytes"])

p("C78","What a Rust value is sent as",
  "For every Rust value and type hint, ToSql returns exactly the SQL value of the documented pairing: leaves unchanged, true and false as UInt8 1 and 0, a String as its UTF-8 bytes, Bytes as a String or, for Array(UInt8)/Array(Int8) columns, as that array with the same eight bits, None as NULL, Vec, arrays, tuples and maps with their components in order, each converted with the hint for its own position; a Vec<u8>/Vec<i8> is sent as an array except where the column is an array of strings.",
  "all Rust types and values built from the covered constructors to any depth, all type hints",
  "nesting depth, hint and content are unbounded; round-trip tests cannot see what is on the wire between the two conversions",
  ["klickhouse/src/convert/std_serialize.rs: ToSql impls", "klickhouse/src/convert/vec_tuple.rs: VecTuple", "klickhouse/src/values/bytes.rs: Bytes"])

p("C79","Dates, times, addresses and UUIDs keep their value in query text",
  "A date, date-time, DateTime64, UUID, IPv4 or IPv6 address or 256-bit integer passed as a query argument is rendered as text that names exactly that value: makeDate with the year, month and day of that day number; an RFC 3339 instant equal to the value to the last decimal, together with the precision; the hyphenated UUID; an address text whose parts are the address's bytes. For date-times this holds exactly if the zone's offset is a whole number of minutes and the local year is at most 9999; a negative Int256 is rendered as a number 2^256 too large.",
  "all day numbers, all 32-bit seconds, all 64-bit ticks and precisions, all zones (any offset table), all 128-bit UUIDs, all IPv4 and IPv6 addresses, all 256-bit integers",
  "The calendar, the rounding of offsets, the abbreviation of IPv6 addresses and the digits of UUIDs have cases (leap years, zero runs, short fractions) no finite set of test dates settles.",
  ["klickhouse/src/values/mod.rs: Display for Value", "klickhouse/src/values/date.rs: From<Date> for NaiveDate", "klickhouse/src/values/int256.rs: Display", "klickhouse/src/values/ip.rs: Display"])

p("C80","Dates and times survive serde",
  "Date, DateTime and DateTime64 values written through serde (JSON and the like) and read back are the same date or the same instant: a date exactly; a DateTime or DateTime64 of any precision as the same instant, reported in UTC, whenever its zone's offset is whole minutes and it lies before the year 10000. Any RFC 3339 text is read as the instant it names, truncated to the precision of the type; instants outside the range of DateTime are refused. The zone of the original is lost, a DynDateTime64 comes back with six decimals, and a date outside 1970-2149 is silently taken modulo 65536.",
  "all dates, all 32-bit seconds, all ticks and precisions 0-9, all zones and offset tables, all RFC 3339 texts, every parser that reads RFC 3339",
  "The text form depends on calendar, offset and number of decimals; tests check UTC values only.",
  ["klickhouse/src/values/date.rs: Serialize/Deserialize for Date, DateTime, DynDateTime64, DateTime64"])

p("C81","Values kept as JSON in string columns",
  "Json<T> stores exactly the text serde_json produces: every value serde_json writes and reads back survives a String column (and LowCardinality(String), and a FixedString(n) column whose n bytes hold the text), alone or optional in a Nullable column, with the rest of the stream untouched. Reading a column of another type, text that is not UTF-8, or text serde_json rejects is reported as an error with its own kind and never panics, and a value serde_json cannot write is reported instead of sent.",
  "every serde_json reader/writer pair, every string column type, every column of values, every value a column can deliver",
  "the round trip ranges over all values, texts and column contents, and over what serde_json does with them",
  ["klickhouse/src/convert/json.rs: Json", "klickhouse/src/convert/std_deserialize.rs: FromSql for String, Option", "klickhouse/src/types/serialize/string.rs: StringSerializer"])

p("C82","The attributes on a derived row struct decide its columns, conversions and defaults",
  "For a struct with #[derive(Row)] whose declaration is accepted: column_names and serialize_row use, field by field and to any depth, the name given by rename, or the field's identifier under the struct's rename_all; fields with skip or skip_serializing are not written; nested fields give the inner struct's columns behind 'name.', flattened ones the inner struct's columns; values are written and read by serialize_with/deserialize_with/with where given and by ToSql/FromSql otherwise; a field that is skipped or has no column gets its own default, else the struct default's member, else (if skipped) its type's Default. Rows written are read back from columns in any order. With into/from/try_from a row is written as, or read as, the other type and converted. Reading a struct of plain fields never panics unless a conversion of the user's does (chrono date-times aside). Declarations that follow the documentation are accepted.",
  "all struct declarations (attributes, fields, nesting and flattening to any depth), all user functions the attributes name, all values, all column orders",
  "The behaviour is the composition of an attribute parser, a renaming rule and a code generator over every possible declaration; tests fix a few structs.",
  ["klickhouse_derive/src/row.rs (expand_derive_serialize, serialize_struct_visitor, deserialize_map, expr_is_missing, column_names_body, serialize_into, deserialize_from, deserialize_try_from)", "klickhouse_derive/src/attr.rs"])

p("C83","A server that keeps the rows gives them back, however it sends them",
  "What insert_native sends holds exactly the rows it was given, with the header's column names and types and each value as a column of that type holds it, and a server can find nothing else in it. Whatever such a server sends in answer to a query for all the rows - in any order, cut into blocks anywhere, each block with its own order of columns and its own encoding, LowCardinality or not, compressed in any frames, under any table name - the client can read in one way only, and query_collect gives all the rows, in the server's order; if the server kept the order, exactly the inserted rows in order. The same for structs with #[derive(Row)].",
  "all headers, row types, batches of rows, connection settings, and all byte strings a server that follows the protocol may answer with",
  "The server may lay out the same rows in infinitely many byte strings; a test server sends one of them.",
  ["klickhouse/src/client.rs (insert_native, query_collect)", "klickhouse/src/block.rs (Block::read, Block::write, Block::into_iter_rows)", "klickhouse/src/internal_client_in.rs (receive_data)", "klickhouse/src/internal_client_out.rs (send_data)", "klickhouse/src/compression.rs", "klickhouse/src/row.rs"])

p("C84","Text is UTF-8, strictly",
  "Texts of the protocol (column and type names, server messages) and String fields are read from any bytes exactly if these are well-formed UTF-8 as the Unicode Standard's table of well-formed byte sequences has it (no overlong forms, surrogates or code points beyond U+10FFFF), and give exactly the text those bytes spell; anything else is a UTF-8 error, never a replacement or a guess. Texts written are their one well-formed encoding behind its length in bytes. No bytes are two texts.",
  "all inputs and all texts",
  "There are infinitely many byte strings and the ill-formed ones border on the well-formed ones at a dozen places.",
  ["klickhouse/src/io.rs (read_utf8_string, write_string)", "klickhouse/src/convert/std_deserialize.rs (impl FromSql for String)", "klickhouse/src/convert/std_serialize.rs (impl ToSql for String)"])

p("C85","Concurrent callers each get their own rows, from the bytes up",
  "Any number of callers share a connection; the server greets and then answers each query it is sent, in turn: rows in data packets of any shape, progress, totals and other packets in between, then the end or an exception. However its bytes are cut into reads and however the callers interleave (unless a request is taken in the middle of a packet), the row stream of the caller of the q-th query is at every moment the beginning of the rows of the q-th answer followed by the server's exception, if any; when the stream ends while the connection lives it is all of it: query_collect returns exactly those rows, execute reports exactly whether the query succeeded.",
  "all sessions (any callers, any interleaving, any cutting of the server's bytes), all answers, all row types",
  "Unit tests run one interleaving against one server; this needs every schedule, every packetisation and every shape of answer.",
  ["klickhouse/src/client.rs: Client::query_raw, Client::query_collect, Client::execute, InnerClient::run_inner, receive_packet", "klickhouse/src/internal_client_in.rs: receive_packet"])

p("C86","What a reply can make the client reserve",
  "Whatever bytes the peer sends, no single reservation made while a block is decoded asks for more than 2^30 entries, unless the number is the length of a FixedString or the arity of a tuple in a type spelled out in those very bytes; the number of reservations for a column is at most a factor given by its type times the bytes there are to read, whatever numbers of rows, elements and dictionary keys they claim; a compressed frame never reserves more than 4 GiB at a time. (The reservations do not follow the size of the reply: 13 bytes reserve 2^30 values, 36 bytes a string of 9*10^18 bytes, a frame of 25 bytes 4 GiB.)",
  "all byte strings, all column types, all claimed row counts, all revisions",
  "A test sends particular sizes; that no claimed size anywhere in a reply escapes the limit needs every byte string and every nesting of types.",
  ["klickhouse/src/types/mod.rs: deserialize_column", "klickhouse/src/types/deserialize/*.rs", "klickhouse/src/io.rs: read_string", "klickhouse/src/block.rs: Block::read", "klickhouse/src/compression.rs: read_compressed_blob"])

p("C87","Progress subscribers miss nothing silently",
  "Any number of subscribers may come and go reading at any pace. What a subscriber has been told accounts for a run of the progress packets that arrived since it subscribed, from the first one on and in order, each with the id of the query in flight; every gap is announced with its exact size; while no more events came than the channel holds (at least 100) there is no gap. A receiver waits exactly while it has been told everything and the connection's task or a Client handle is alive; the end is reported only after both are gone. (So while a Client handle exists, a subscriber of a dead connection waits for ever.)",
  "all runs of the connection interleaved with any number of subscriptions and reads",
  "Whether events are lost silently depends on the interleaving of packets, subscriptions and slow readers; a test runs one.",
  ["klickhouse/src/client.rs: PROGRESS_CAPACITY, Client::subscribe_progress, InnerClient::receive_packet"])

p("C88","Without the bfloat16 feature replies are read the same or refused",
  "In a build without the feature bfloat16: the type names understood are those of the full build in which BFloat16 does not occur, with the same meaning, the others are a type-parse error. Every reply is read exactly as the full build reads it, or refused with that error, and refused only if a type with BFloat16 in it is spelled out in the reply or the full build fails on it too; a block that was read has no BFloat16 column; a reply with such a column is refused. The panicking stubs are never reached by a reply, nor by inserting values that pass the type check into columns the server described: those are written as in the full build. (A program that makes up a BFloat16 column type itself does reach them and panics.)",
  "all type names, all reply bytes and revisions, all types and lists of values",
  "Two builds of the same code have to agree on every input; the test suite runs one of them on a few.",
  ["klickhouse/src/values/bfloat16.rs", "klickhouse/src/types/mod.rs: Type::from_str, is_bfloat16_enabled", "klickhouse/src/types/deserialize/sized.rs", "klickhouse/src/types/serialize/sized.rs"])

p("C89","A statement cut off by a lost connection is reported as successful; later ones fail",
  "execute reports success exactly if its result stream has ended, by the server's end of the query or by the end of the connection, and no exception has been received. So a statement in flight when the connection ends is reported as successful, whatever the server did with it (success does not mean completion); every later statement on that connection fails. A migration that reports success has nevertheless run: the server confirmed the lock and every statement of the scripts, and only the release of the lock may be unconfirmed; one that is cut off at a statement of its scripts fails at the next.",
  "every reachable state of a connection and every way it ends; every list of scripts and every point at which the connection is lost",
  "The loss can come at any point of any history.",
  ["klickhouse/src/client.rs: Client::execute, InnerClient::run", "klickhouse/src/lock.rs: try_lock, lock", "klickhouse/src/migrate.rs: AsyncTransaction::execute"])

p("C90","A batch of which no row can be serialized ends the insert, which reports success",
  "A batch of an insert can be written only if all its rows serialize to the same columns or none gives any value. In the second case (every row of the batch cannot be serialized) the batch is accepted, the connection goes on, and what is sent is a block without columns, the Native protocol's mark for the end of the data: insert_native returns Ok although none of these rows is sent, and to a server that stops there the later batches, serializable or not, are no longer part of the insert.",
  "every row type and serialization, header, sequence of batches, connection state and protocol revision",
  "The claim is about all batches and all positions of the failing one; the effect depends on how the number of columns is counted when the block is written.",
  ["klickhouse/src/client.rs: Client::insert_native", "klickhouse/src/block.rs: Block::write"])

p("C91","A block that cannot be written never reaches the server as a complete block",
  "When a data packet fails because a column has the wrong number of values, with compression only the packet's head has been handed to the socket; without compression the columns before that one have, but however much of it the server receives it cannot read it as a complete block (for blocks with at least one row whose earlier columns can be sent, and a column type that has any bytes). A batch some of whose rows cannot be serialized gets no further than the name and type of its first column: no value of any of its rows is sent.",
  "every block, protocol revision, position of the bad column and cut of the bytes by the network",
  "Quantifies over all blocks and all ways the buffered bytes may be cut when the connection ends.",
  ["klickhouse/src/block.rs: Block::write", "klickhouse/src/internal_client_out.rs: send_data, compress_data"])

p("C92","Lock calls classify the server's answers by its words, and release once",
  "try_lock sends one CREATE and returns a handle exactly if the answer has no exception, none exactly if the first exception has the words \"already exists\" in its name, message or stack trace (its code is not consulted), and otherwise that exception; lock repeats this with the same statement 100 ms after every refusal and returns exactly when it is not refused. Giving back a handle, by unlock or by dropping it, sends the DROP at most once, whatever is cancelled; nothing is sent only if the connection had ended, if the runtime ended before the spawned task ran, or if the future of unlock was dropped while it waited for room in the client's queue (then the lock stays taken). An unlock that returns success has sent it.",
  "every lock, every answer of the server, every sequence of answers, every point of cancellation",
  "Quantifies over all exception texts (the words could also arise across the parts of the rendered text), all numbers of refusals and all interleavings of polls, cancellations and shutdown.",
  ["klickhouse/src/lock.rs: try_lock, lock, reset, ClickhouseLockHandle::unlock, Drop", "klickhouse/src/errors.rs: Display", "klickhouse/src/client.rs: execute, query_raw"])

p("C93","Errors keep their contents when copied, named or reported",
  "A cloned error reads the same and equals the original except for the operating system's number of an I/O error; naming a column puts the name before the unchanged details of a deserialize or unexpected-type error, leaves every other error alone, and does not replace an earlier name; a server exception is reported with the server's code, name, message and stack trace unchanged. The message of an error has fixed words and tells which kind of error it is and, if its details are a single text, the details.",
  "every error, every column name, every exception",
  "Must hold for every error value of every kind.",
  ["klickhouse/src/errors.rs: KlickhouseError, with_column_name, Clone", "klickhouse/src/protocol.rs: ServerException::emit"])

p("C94","Plain scripts split at every semicolon; the migration history table; reading the history is not locked",
  "A script without quotes, comments and here-documents is cut after every semicolon and nowhere else, whatever else the tokenizer does. Creating the history table (for a plain table name) executes exactly one CREATE TABLE IF NOT EXISTS on a single server, and on a cluster exactly the local and then the distributed one with cluster and database filled in, under the lock. Reading the history sends just the query and does not take the lock; so runners that take turns apply a migration at most once, but each of several runners that read the history before the first has finished applies it.",
  "every script and every way to cut it into tokens, every table, cluster and database name, every set of runners",
  "Quantifies over all scripts, over the unspecified choices of the tokenizer, and over interleavings of migration runners.",
  ["klickhouse/src/migrate.rs: assert_migrations_table_query, AsyncQuery::query, AsyncTransaction::execute", "klickhouse/src/query_parser.rs: Token, split_query_statements"])

p("C95","Waiting for a lock",
  "A client waiting in lock (or a migration waiting no more than a minute) whose pause is over gets the lock with its next attempt if the lock is free when that attempt is executed, and nothing else changes. There is no queue: a waiting client may be refused any number of times while others give the lock back and take it again.",
  "every state of the lock tables and tasks; every number of rounds",
  "Progress and starvation are statements about all states and unboundedly long schedules.",
  ["klickhouse/src/lock.rs: lock", "klickhouse/src/migrate.rs: execute"])

p("C96","What a derived struct is written as",
  "For every struct with #[derive(Row)] in which nested structs contain no flattened field, and every value of it: serialize_row returns exactly the columns of column_names in that order - nothing for a skipped field, the converted value under the field's name, the columns of the struct of a flattened field, and for a nested field the column name.c with the array of what its rows write for c, also when it has no rows. It succeeds if every conversion does, and otherwise fails as the first conversion that fails, in the order of the fields and, inside a nested field, of the rows. A nested struct with a flattened field makes it panic, whatever the value.",
  "every struct declaration to any depth, every value with any number of rows, every set of column type hints",
  "declarations, nesting depth and numbers of rows are unbounded; a transposition or order mistake shows only with certain numbers of rows and columns",
  ["klickhouse_derive/src/row.rs: serialize_struct_visitor, column_names_body, serialize_length_body", "klickhouse/src/row.rs: Row"])
with open(os.path.join(os.path.dirname(__file__),"..","properties.jsonl"),"w") as f:
    for o in P: f.write(json.dumps(o,ensure_ascii=False)+"\n")
print(len(P))
