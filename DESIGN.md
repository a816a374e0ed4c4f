# Formal model of Protryon/klickhouse in Rocq (Coq 8.16.1)

("Method" and "Plan per property" were written before the proofs; the other sections are kept current
as the work grows.)

## Method

* The model is a set of total, computable Gallina functions, one per Rust function, in
  `rocq/theories/`.  Every definition cites the file and lines it models.
* `Result` and panics are data: `res A := Ok a | Err e | Panic`.  `Panic` covers `unwrap` on `None`,
  `unimplemented!`, `unreachable!`, `assert_eq!`, out-of-bounds indexing and arithmetic overflow in a
  build with overflow checks (the `dev`/`test` profile).
* Bytes are `N` below 256; text is a list of Unicode scalar values (`N`).
* A reader is a function from the remaining input to a result and the input left over; end of input
  is an error (`read_exact`).  A writer returns the bytes written.  Async is erased except in the
  client model, where scheduling is the point.
* External code (LZ4, CityHash, the SQL tokenizer, time zone tables, Unicode tables) enters as
  function parameters; what a theorem assumes about them is a visible hypothesis of that theorem.
* Property theorems live in `Props_*.v`, each closed by `exact` of a lemma, with `Print Assumptions`
  below and an `Example` showing that its hypotheses are met by a non-trivial case.
* `_partial` marks a theorem that covers part of a property; `_refuted` marks a proof that the stated
  property is false of the code, with a concrete witness.

## Plan per property

| id | modelled | how proved |
|---|---|---|
| C01 | `read_var_uint`/`write_var_uint` | induction on the 9 steps; refuted at 2^63 |
| C02 | `read_string`/`write_string` | from C01 |
| C03,C04,C05,C06,C47 | all of `types/serialize`, `types/deserialize`, dispatch in `types/mod.rs` | induction on the type, generalised over columns; LowCardinality via an index-set lemma |
| C07,C08 | same | induction on the type; refuted by witnesses for LowCardinality / offsets |
| C09,C10 | same | reader locality closed under bind; fuel shown sufficient |
| C11,C12 | `Type::from_str`, `Display for Type` | induction on type with a parenthesis-balance lemma; panics refuted by witness |
| C13,C14,C15 | `validate`, `inner_validate_value`, `default_value` | induction; refuted by witnesses |
| C16..C19 | `block.rs` | list induction over columns on top of C04 |
| C20,C21 | `compression.rs`, `send_data` | LZ4/CityHash as parameters; induction on read sizes |
| C22,C25,C46 | `Display for Value` | independent literal lexer as specification |
| C23,C24 | `query_parser.rs` | over arbitrary token lists |
| C26 | `query/select.rs` | refinement to a clause-list specification |
| C27..C30,C48,C49 | `client.rs` inner state machine | invariants over arbitrary event lists; refutations by schedule |
| C31,C32 | `client.rs` public API | list functions |
| C33,C34,C50 | `lock.rs`, `migrate.rs` | transition systems over a table-existence server |
| C35 | `progress.rs` | algebra |
| C36 | `values/date.rs` | chrono's calendar modelled as day/nanosecond counts |
| C37,C38 | `values/int256.rs`, `values/fixed_point.rs` | arithmetic |
| C39 | `convert/raw_row.rs` | refinement to a finite map with tombstones |
| C40,C41 | `internal_client_in.rs`, `internal_client_out.rs` | independent server-side encoder/decoder as specification |
| C42 | `migrate.rs`: `assert_migrations_table_query`, `AsyncQuery::query`; tokens that may contain a semicolon | `Bootstrap.v` | in the theorems | C94 |
| `klickhouse_derive/src/case.rs` | over lists of words |
| C43 | `klickhouse_derive/src/row.rs` generated code | over arbitrary field lists; exactness for nested (`NestedSpec.v`, `NestedProofs.v`) and flattened structs (`FlatSpec.v`, `FlatProofs.v`) by induction over the struct |
| C44 | `convert/std_*.rs` | induction over a universe of Rust types, with types converting themselves (`RUser`, the conversions being parameters) among them |
| C45 | `PartialEq`/`Hash` for `Value` | structural; refuted for geo points |
| C51 | `Block::read` | locality and incremental-reading lemmas composed over the reader |
| C54,C55,C56 | `insert_native` (Api.v) with the connection model | the blocks handed over as a function of header and batches; refuted by concrete runs and, for C55/C56, by theorems over all runs/batches |
| C57 | `Display for Value` (Literal.v) | induction over nested values; the unrenderable values as an inductive predicate |
| C58 | `values/decimal.rs` (Numeric.v) | integer arithmetic on mantissa and scale; `rust_decimal` as a pair with its documented limits |
| C59 | `values/mod.rs` `guess_type` (Infer model) | induction on values; exact panic set; identity on a recursive class of types |
| C60 | `types/deserialize/*`, `convert/std_deserialize.rs` | typing judgment for decoded values proved by induction on the type for arbitrary bytes, then composed with the conversions |
| C61 | all column (de)serializers | an inductive relation `encodes` (WireSpec.v) written from the Native format; decoding by mutual induction on the relation, encoding by induction on the type |
| C62 | `block.rs` | relation `block_wire` over `encodes`; both directions |
| C63 | `compression.rs`, `compress_data` | relation `frame_wire` with hash and LZ4 as parameters; both directions |
| C64 | derive `attr.rs`, `ast.rs`, `check.rs` | attribute lists as data; relations `says_field`/`says_struct` from the documented tables; both directions |
| C65 | `values/geo.rs` (geo_types) | `Polygon::new`'s closing modelled; exact characterisation of what survives; composed with the column round trip |
| C66 | `manager.rs`, `is_closed` | invariants of `Connection.v` |
| C67 | `run_inner` with the hello exchange over byte streams: the transition system of `Session.v` combines `Connection.v`, `ReaderLoop.v` and `Protocol.v` | invariants over executions; the server's reading of the client's bytes is a separate relation (`SessionSpec.v`) |
| C68 | `validate`, `validate_value` | induction over types against inference rules (`ValidateSpec.v`) |
| C71 | insert, wire and query composed | composition of C31, C16, C20, C40, C19, C32, C43, C44 (`TripSpec.v`, `TripProofs.v`), by induction on the batches | 
| C72 | `query_parser.rs` `parse_heredoc` | by induction on the text searched (`Heredoc.v`, `Props_QueryText.v`); `parse_str` of compiler_tools is a parameter |
| C73 | `parse_query_arguments` and `Display for Value` against a specification of the server's lexer (`SqlLex.v`) | an automaton over the text; by induction on values and templates (`SqlLexProofs.v`) |
| C70 | the connection task under fairness | infinite executions of the `Connection.v` step relation (`LivenessSpec.v`); induction on the request queue, then on the queries in submission order, using the reachable-state invariant | 
| C74 | the error values of `Derive.v` and `Convert.v` | induction over the columns, then over the struct (`DeriveErrors.v`) |
| C75 | `values/fixed_point.rs` to `f64` (Float64.v, IEEE-754 operations of Coq's `SpecFloat`) | relate `SpecFloat` to Flocq's rounding on the reals; error analysis with same-sign summands; monotonicity by cases on 2^53 with ties-to-even |
| C76 | type syntax (syn), the bound and Self traversals, the obligations of the generated code; a judgement for the crate's implementations | mutual induction over the syntax against a separate 'used inside' relation; induction over the judgement; a meaning function for Self |
| C77 | from_sql of Convert.v against the inductive relation `reads` (ReadSpec.v) | induction on the Rust type, inversion of the rules |
| C78 | to_sql of Convert.v against the inductive relation `sent` (ToSqlSpec.v) | induction on the Rust type, inversion of the rules |
| C79 | Calendar.v: civil dates, RFC 3339, addresses; CalendarSpec.v: the calendar as successor relation from 1970-01-01, the meaning of an RFC 3339 text, address grammars of RFC 4291 | closed formula for the date proved equal to the successor relation by induction; uniqueness of the instant a text names; positional arithmetic for digits; run of zeros found by the scan |
| C80 | SerdeTime.v: the four pairs of impls over Calendar.v and Numeric.v; CalendarSpec.v for the texts | texts of rfc3339 name the instant (C79's lemma without Z), then the conversions of C36; a strict parser for non-vacuity |
| C81 | `convert/json.rs` with serde_json as a parameter (`Json.v`) | reduction to C44 at `String` and `Option<String>` |
| C82 | declarations compiled through the model of the attribute parser to the model of the generated code (`Declare.v`) | composition of C64 and C43 by induction over the declaration (`DeclareProofs.v`), against inductive relations over what the attributes say (`DeclareSpec.v`) |
| C83 | a server as relations over bytes: the rows a payload holds, what it stores, what it may answer (`StoreSpec.v`); the client by the existing models | uniqueness of reading plus the decoding theorems for all encodings (`StoreProofs.v`) |
| C84 | `String::from_utf8` and `str::as_bytes` as functions (`Utf8.v`) | equality with the tables of the Unicode Standard given as inference rules (`Utf8Spec.v`, `Utf8Proofs.v`) |
| C85 | ServeSpec.v: an answer's bytes as a relation (reply_wire), a server that speaks in turn (in_turn); the session of Session.v | invariant over the session: every packet received belongs to the answer of the query in flight; then C27/C52 and the block decoding of C83 |
| C86 | Reserve.v: the sizes given to with_capacity and vec![x; n] while a column, block or frame is decoded, for every input | induction on the type: sizes after the guards; number by a budget of bytes read (each round of a dictionary loop reads something) |
| C87 | Broadcast.v: tokio's broadcast channel over the events of Connection.v, one position per receiver | invariant: the notes of each receiver account for the events between its start and its position; positions never pass what was published |
| C88 | NoBf16.v: parser, column reader and writer with the stubs of values/bfloat16.rs | induction on fuel (parser) and on the type (columns); a relation between readers that composes (blocks) |
| C89 | Connection.v, Manager.executed; Lost.v: what a migration sees of statements that are cut off | C52, C66 and the behaviour theorem of C50; induction on the fates of the statements |
| C90 | Api.v (insert_block, insert_batches), Block.v (join_columns), Connection.v; ConnectionSpec.no_columns | which columns get values, by induction on the rows; the bytes of a block without columns; a concrete run |
| C91 | Partial.v: the writes of `Block::write` and `send_data` one by one, with what has been handed over when they fail | the columns before the bad one are read back (C16), then the reader needs a byte that is not there, by induction on the type; locality (C51) for every prefix |
| C92 | Errors.v: the error texts; LockCalls.v: the calls on the answers they get, and the life of a handle as a state machine | the words cannot lie across a character that is not one of theirs; induction on the answers; invariant of the life of a handle over all event sequences |
| C93 | Errors.v: all variants with their texts, Display, Clone, with_column_name, emit | case analysis over the variants |
| C94 | Bootstrap.v: which tokens may contain a semicolon, the table statements, the history query, runners as interleaved steps | induction on the tokens, then computation with the table name abstract; induction on the runners |
| C95 | Lock.v | symbolic execution of three steps from an arbitrary state; induction on the number of rounds with the state of the two tasks as invariant |
| C96 | `klickhouse_derive/src/row.rs` 138-343 (`Derive.v`) | induction over the struct, against the relation of `WriteSpec.v` (`WriteProofs.v`) |
| C69, C12 | `Type::from_str` | the parser equals a grammar and a panic relation given as inference rules over parenthesis levels (`TypeGrammar.v`, numbers in `Numeral.v`), by induction on the length of the text |
| C52,C53 | the connection transition system (Connection.v) | invariant of all reachable states; refuted by concrete runs |

## Trusted base

* The kernel of Coq 8.16.1 (including `vm_compute`, used in examples and in a few concrete witnesses).
* `Print Assumptions` is run in the `Props_*.v` files under the property theorems.  Every theorem outside
  `Props_Float.v` prints `Closed under the global context`.  In `Props_Float.v`, `C75_panics` and
  `C75_not_nearest_refuted` are closed too; `C75_close`, `C75_monotone`, `C75_injective`, `C75_integers`
  and `C75_exact` are proved through the real numbers and rest on the four axioms of Coq's standard
  library that its reals bring (their statements speak of integers and rationals only):
  `ClassicalDedekindReals.sig_not_dec`, `ClassicalDedekindReals.sig_forall_dec`,
  `FunctionalExtensionality.functional_extensionality_dep`, `Classical_Prop.classic`.  (`vcheck` lists seven constants of
  `Coq.ssr.ssrunder.Under_rel`: these are the fields of a module of Coq's own library that is loaded
  by `Lia`; no theorem here uses them.  It also lists the fields of the sealed modules `RbaseSymbolsImpl` and
  `RinvImpl` of Coq's `Rdefinitions`, which have definitions in that library, next to the four axioms.)
* The development uses Coq's standard library (`List`, `NArith`, `ZArith`, `Lia`, `Bool`, `String`,
  `Permutation`, `Sorted`, `QArith`, and `Reals`, `SpecFloat` for C75) and, in `FloatProofs.v` and
  `FloatMono.v`, Flocq's theory of rounding (which adds no axiom of its own), no axioms of its own, no `Admitted`, no functors or module types.
* The correspondence between the Gallina functions and the Rust source is by reading: every definition
  cites the lines it follows.  What is simplified is said in the comment of the definition and below.
* The reading of Rust itself: integer widths and casts, `Option`/`Result`, `IndexMap`/`VecDeque` order,
  `tokio::select!` dropping the losing future, channel capacities, `BufReader`/`read_exact`.
* Panics follow the `dev`/`test` profile (overflow checks on).  In a release build the arithmetic
  overflows among them wrap instead; the indexing and `unwrap` panics stay.

## What is modelled

| Rust | model | specification | theorems |
|---|---|---|---|
| `io.rs` | `Io.v` | `WireProofs.leb128`, `IoExact.digits`, `IoExact.varint_octets` | C01, C02 |
| `types/mod.rs`: `Type`, `validate`, `inner_validate_value`, `default_value`, `validate_value` | `Types.v` | | C13-C15 |
| `types/serialize/*`, `types/deserialize/*`, `types/low_cardinality.rs` | `Ser.v`, `Deser.v` | `ColumnSpec.v`, `WireSpec.v`, `DecodePanics.v` | C03-C10, C47, C60, C61 |
| `types/mod.rs`: `FromStr`, `Display` for `Type` | `TypeText.v`, `Text.v` | in the theorems | C11, C12, C69 |
| `block.rs` | `Block.v`, `IndexMap.v` | `BlockSpec.v`, `BlockWire.v` | C16-C19, C51, C62 |
| `compression.rs`, `compress_data`, `send_data` | `Compression.v` | `FrameWire.v` | C20, C21, C63 |
| `internal_client_in.rs`, `internal_client_out.rs`, `protocol.rs` | `Protocol.v` | `ProtocolSpec.v` (a server's encoder and decoder) | C40, C41 |
| `client.rs` 36-208 (the connection task and its channels) | `Connection.v`, `ReaderLoop.v` | `ConnectionSpec.v` | C27-C30, C48, C49, C52, C53 |
| `block.rs` 219-251, `internal_client_out.rs` 193-225 on failure | `Partial.v` | in the theorems | C91 |
| `client.rs` 311-560 (queries and inserts) | `Api.v` | in the theorems | C31, C32, C54-C56, C90 |
| `progress.rs` | `Progress.v` | in the theorems | C35 |
| `query_parser.rs`, `query/mod.rs`, `query/select.rs` | `Query.v` | `QuerySpec.v` | C23, C24, C26 |
| `query_parser.rs` `parse_heredoc` | `Heredoc.v` | `Props_QueryText.v` | C72 |
| `values/mod.rs`: `Display`, `Hash`, `PartialEq`, `guess_type` | `Literal.v`, `Hashing.v`, `Types.v` | `LiteralSpec.v` (a literal lexer) | C22, C25, C45, C46, C57, C59 |
| the texts chrono, std and uuid make for `Display` of `Value`: dates, RFC 3339, addresses | `Calendar.v` | `CalendarSpec.v` | C79 |
| `values/int256.rs`, `fixed_point.rs`, `decimal.rs`, `date.rs` | `Numeric.v` | `NumericSpec.v` | C36-C38, C58 |
| `values/date.rs`: serde impls | `SerdeTime.v` | `CalendarSpec.v` | C80 |
| `values/fixed_point.rs`: `From<FixedPointN> for f64` | `Float64.v` (IEEE-754 by Coq's `SpecFloat`) | `FloatSpec.v` | C75 |
| `values/bytes.rs`, `ip.rs`, `clickhouse_uuid.rs`, `convert/std_*.rs`, `vec_tuple.rs`, `unit_value.rs` | `Convert.v` | `ConvertSpec.v`, `ReadSpec.v`, `ToSqlSpec.v` | C44, C60, C77, C78 |
| `convert/json.rs` | `Json.v` | `JsonSpec.v` | C81 |
| `convert/raw_row.rs` | `RawRow.v` | in the theorems | C39 |
| `lock.rs`, the lock loop of `migrate.rs` | `Lock.v` | histories in the theorems | C33, C34, C95 |
| `lock.rs` call by call, the life of a handle | `LockCalls.v` | in the theorems | C92 |
| `errors.rs`, `ServerException::emit` | `Errors.v` | in the theorems | C93 |
| `execute` on a connection that breaks, under `lock.rs` and `migrate.rs` | `Lock.v` (ELost), `Lost.v` | `Lost.fate` | C33, C89 |
| `migrate.rs` | `Migrate.v` | in the theorems | C50 |
| `klickhouse_derive/src/case.rs` | `Rename.v` | in the theorems | C42 |
| `klickhouse_derive/src/row.rs`, `errors.rs: with_column_name` | `Derive.v` | `DeriveSpec.v`, `NestedSpec.v`, `FlatSpec.v`, `WriteSpec.v` | C43, C74, C96 |
| `klickhouse_derive/src/row.rs`: from attributes to generated code, `from`/`try_from`/`into` | `Declare.v` | `DeclareSpec.v` | C82 |
| `klickhouse_derive/src/attr.rs`, `ast.rs`, `ctxt.rs`, `check.rs`, `symbol.rs` | `Attrs.v` | `AttrSpec.v` | C64 |
| `klickhouse_derive/src/bound.rs`, `receiver.rs`, `internal.rs`, generics and obligations of `row.rs` | `Bounds.v` | `BoundSpec.v` | C76 |
| `values/geo.rs` (conversions to and from geo_types) | `Geo.v` | in the theorems | C65 |
| `manager.rs` | `Manager.v` | in the theorems | C66 |
| `client.rs` `run_inner` over bytes (hello exchange, loop, `start`) | `Session.v` | `SessionSpec.v`, `ServeSpec.v` | C67, C85 |
| reservations made while decoding (`with_capacity`, `vec![x; n]`) | `Reserve.v` | `ReserveSpec.v` | C86 |
| `values/bfloat16.rs` stubs (build without the feature) | `NoBf16.v` | `NoBf16Spec.v` | C88 |
| `client.rs` `subscribe_progress`, tokio's `broadcast` | `Broadcast.v` | `BroadcastSpec.v` | C87 |
| std's `String::from_utf8`, `str::as_bytes` | `Utf8.v` | `Utf8Spec.v` | C84 |
| insert, wire, query end to end | the models above | `TripSpec.v`, `StoreSpec.v` (a server that stores and answers) | C71, C83 |

External code enters as parameters: the LZ4 codec and CityHash (`Compression.v`), the tokenizer generated
by `compiler_tools` (`Query.v` takes its token list), `chrono-tz`'s time zone database
(`Numeric.v`, `Literal.v`, `TypeText.v`; calendar dates, RFC 3339 and address texts are modelled after the documentation of chrono and std in `Calendar.v`), float formatting, Unicode case tables and white space
(`TypeText.v`, `Rename.v`), `serde_json`.

## What is not modelled

* The TCP and TLS set-up, `connect_stream`'s spawning, `Drop` of the task, logging.  In `Connection.v` a write to the
  socket is one step that succeeds or fails.
* `values/bfloat16.rs` beyond its 16 bits (the `half` crate's arithmetic); builds without the feature `bfloat16` (on by default) only where C88 says so.
* `types/tests.rs`, `values/tests.rs`, `examples/`, `tests/`.
* Token stream plumbing of the derive crate (`fragment.rs`, `respan.rs`, `dummy.rs`); `syn`'s parsing; rustc's
  type checker, except as the judgement `BoundSpec.implements` for C76.
* Floating-point arithmetic other than the `f64` conversions of fixed-point numbers (C75); elsewhere floats are
  bit patterns that are carried unchanged.
* Allocation failure (an abort, or the kernel's killer), and memory limits other than the explicit `MAX_STRING_SIZE` checks.
  `Vec::with_capacity` beyond `isize::MAX` bytes is modelled as the panic it is, where the length comes from the
  server unchecked (`FixedString(n)`, the rows of `take_iter_rows`); elsewhere `MAX_STRING_SIZE` bounds it.
* The ClickHouse server, except as the table-existence server of `Lock.v` and as the sender of arbitrary
  packets elsewhere.

## Findings

Behaviour of the code at this commit that a user would not expect; each is a theorem (name in brackets) or, where
it concerns code outside the model, an observation.

Wire format and decoding
* A `u64` with the top bit set loses it as a varint [C01_top_bit_refuted].
* A LowCardinality header with neither key flag makes rows disappear [C07_low_cardinality_refuted].
* With only a shared dictionary, index 0 of a Nullable LowCardinality column is read as the placeholder, not NULL
  [C61_shared_null_refuted].  (ClickHouse itself numbers the shared dictionary before a chunk's own keys, this library after
  them; servers do not use shared dictionaries over the native protocol, so neither matters in practice: observation.)
* Decreasing array offsets, map offsets beyond the last one and short map keys panic [C08_*_refuted].
* A column of type `FixedString(n)` with n of 2^63 or more panics on its first row [C08_fixed_string_refuted]; ten bytes make a block without
  columns whose claimed row count makes every row stream panic [C19_huge_count_refuted]: entries are reserved per row, not per column.
* Memory is reserved on the peer's word: 13 bytes make the client reserve 2^30 values, 36 bytes a string of 9*10^18 bytes (an abort), a 25-byte frame
  4 GiB [C86_*_refuted].
* The overflow flag `false` is written as 2 and read back as `true` [C17_overflow_flag_refuted].
* A corrupt compressed frame is reported to the caller as an unexpected end of input, like a broken connection
  [C21_corruption_reported_refuted].
* With no columns, or when the declared number of rows is smaller than the columns, the row iterators of a block disagree about
  the number of rows [C19_no_columns_refuted, C19_declared_rows_refuted].
* Revisions exactly 54058, 54372 and 54401: the hello's last field is not read; the log packet panics; nested
  exceptions are not read although announced [C40_log_packet_panics, C40_nested_exception_not_read].

Types and values
* Named tuple elements (`Tuple(a UInt8)`), `Date32`, `Nested` and aggregate states cannot be read [C69_*_refuted]; a trailing comma is accepted (C69_trailing_comma).
* Enum names with `,`, `=` or a parenthesis are not read back; some texts panic the type parser [C11_enum_names_refuted, C12_*_refuted].
* Validation accepts tuples of the wrong arity, maps with unequal lengths, NULL for Nullable geo [C13_*_refuted]; these are all the ways in which a validated column panics or fails to come back (C13_written_iff, C13_comes_back_iff; `SendSpec.v`).
* Rejecting some values panics because their message cannot be rendered [C14_rejection_refuted]; the default of
  an enum without a variant 0 is rejected by its own type [C15_enum_default_refuted].
* 0.05 is rendered as 5, -0.05 as no number at all [C25_all_decimals_refuted]; a one-element tuple is rendered as its element [C46_singleton_tuple_refuted].
* A point, ring, polygon or multipolygon given as a query argument is rendered as Rust debug text, `Point([1.0, 2.0])`, which is no literal the server can read [C46_geometry_refuted, C46_point_text].
* A date-time in a zone whose offset has seconds (Monrovia before 1972) is rendered up to 30 s off; years after 9999 are
  rendered as no RFC 3339 text; a negative Int256 as a number 2^256 too large [C79_*_refuted].
* Through serde a date-time loses its zone, a DynDateTime64 its precision, and a date outside 1970-2149 becomes another one
  [C80_*_refuted].
* `Some(None)` comes back as `None`; `VecTuple` over LowCardinality cannot be read; `Vec<u8>` in String columns;
  a UInt8 accepted as an Int8 panics when read [C44_*_refuted].
* JSON text longer than a FixedString column is cut silently and may read as another value [C81_fixed_string_refuted].
* Fixed-point numbers do not convert to the nearest double: 1.14 becomes 1.1400000000000001 [C75_not_nearest_refuted].
* Equal values that hash differently, values not equal to themselves (geo) [C45_*_refuted].
* `guess_type` of an array whose first element is empty [C59_empty_first_refuted].
* Invalid UTF-8 in a String column is reported without the name of the column [C74_utf8_refuted]; `KlickhouseError::UnexpectedType` is never produced (a mismatch is a `DeserializeError`).

Connection, queries, inserts
* `-$1` with a negative number becomes a comment; `$1$2` with two strings becomes one string [C73_after_minus_refuted, C73_adjacent_refuted].
* `receive_packet` is not cancel-safe in `select!`: a request arriving in the middle of a packet loses bytes [C30_*_refuted].
* After an exception the data of a failed insert goes out while the next query is in flight [C49_foreign_data_refuted].
* A result cut short by a broken connection ends without an error [C52_truncated_refuted].
* A progress subscriber of a dead connection waits for ever as long as a Client handle exists, since each handle holds a sender [C87_dead_connection_refuted].
* A caller that leaves 32 results unread blocks every other query [C53_unread_stream_blocks_everyone_refuted].
* An insert the server rejects returns Ok [C54_rejected_insert_is_ok_refuted]; one that fails on the client leaves its query open
  [C55_failed_insert_blocks_connection_refuted]; a row that "is skipped" ends the connection [C56_bad_row_ends_connection];
  if no row of a batch can be serialized the batch goes out as the end-of-data mark and the insert reports success [C90_nothing_inserted_is_ok, C90_rows_inserted_refuted].

Locks and migrations
* A client whose connection breaks while it waits for the lock is handed the lock, whoever has it [C33_lost_connection_refuted, C33_lost_connection_grants]: `execute` reports
  success for a statement whose answer was cut off [C89_success_is_completion_refuted]. A migration whose release is cut off reports success too [C89_released_refuted].
* A dropped attempt keeps the lock [C33_abandoned_attempt_refuted]; a migration that has waited a minute drops the lock of the
  running one, whose release then drops the second one's [C34_slow_migration_refuted, C34_release_steals_refuted].
* A database name containing the other placeholder is changed [C50_database_name_refuted].

Validation
* A scale of 0 (`Decimal(9, 0)`, `DateTime64(0)`), legal in ClickHouse, is refused by validation: nothing can be inserted
  through `insert_native` into such a column [C68_scale_zero_refuted].

Rows and the derive macro
* `RawRow::get` by an index out of range panics instead of returning an error; setting a column with an empty name panics [C39_*_refuted].
* `PascalCase`/`camelCase` map `a_b` and `a__b` to the same column; `lowercase` does not lower letters [C42_*_refuted].
* An unknown column is read into the field at its position; an extra column can make a row fail; a nested field without
  columns whose struct is all defaults loops for ever; type hints of nested fields come from the outer struct; two
  flattened structs with a common column; a field that is written but not read (`skip_deserializing`) directly before one that
  is both makes the struct's own rows unreadable [C43_*_refuted].
* Writing a nested field whose struct has a flattened field panics ("nested structure must have known length") [C96_flattened_in_nested_refuted].
* `deny_unknown_fields` generates code naming `KlickhouseError::UnknownField`, which does not exist (observation), so it does not compile; with a flattened field the arm is dropped, the code compiles and denies nothing [C82_deny_unusable_refuted, C82_deny_refuted].
* `rename = foo` without quotes and `rename` on the struct are silently ignored; `skip` with `skip_serializing` is an error;
  `camelCase` panics the macro for a field `_` [C64_*_refuted].
* Derived bounds fall short of what the generated code asks for: a generic field that is
  `skip_serializing` or has only `serialize_with` gets no `FromSql` bound; `flatten` on a parameter needs `Row`;
  a `Vec<T>` needs `T: 'static`; `PhantomData<T>` is passed over as in serde, but has no conversions here; a nested
  field with a generic element puts the parameter into `const fn __S_column_count_klickhouse()`, where it is
  not in scope [C76_*_refuted].  Also, not modelled: `#ty::column_names()` (row.rs 214, 312, 558, 606) is no valid expression when
  the flattened type is written with type arguments.

Builds
* Without the feature `compression` the crate does not compile: the stub `compress_data` takes `&Block` (`internal_client_out.rs` 187) where `send_data` passes a `Block` (observation).

* Without the feature `bfloat16`, a block whose column type the program itself gives as BFloat16 panics when it is written [C88_stub_refuted].

* A lock counts as taken whenever an exception mentions "already exists", whatever its code; an `unlock` cancelled while the
  client's queue is full, or a handle dropped as the runtime ends, leaves the lock taken [C92_code_refuted, C92_cancelled_unlock_refuted].
* The lock is not fair: a waiting client can be refused for ever while others take it again [C95_starvation_refuted].
* The migration history is read without the lock: runners started together each apply the same migration [C94_applied_twice_refuted].
* A cloned I/O error has lost its OS error number [C93_os_number_refuted].

Geometry and pools
* A ring that begins with NaN grows by a point with every conversion from geo_types [C65_nan_never_closed_refuted].
* `connect` returns success when the connection dies during the settings query; a connection blocked by a failed insert is
  not reported broken and its validity check never returns [C66_*_refuted].
* A login the server refuses (wrong password) reaches the caller of `connect` as "failed to receive blocks from upstream":
  the server's exception is only logged [C67_login_reason_lost_refuted].
