-Q theories Verif
theories/Base.v
theories/Io.v
theories/IoProofs.v
theories/IoExact.v
theories/Types.v
theories/Ser.v
theories/Deser.v
theories/ColumnSpec.v
theories/ColumnProofs.v
theories/ColumnRoundtrip.v
theories/LowCardProofs.v
theories/WireProofs.v
theories/Props_Wire.v
theories/DecodeProofs.v
theories/DecodeProofs2.v
theories/WireSpec.v
theories/WireDecode.v
theories/DecodePanics.v
theories/DecodeRows.v
theories/Props_Decode.v
theories/Text.v
theories/TypeText.v
theories/TypeTextProofs.v
theories/TypeTextProofs2.v
theories/Props_TypeText.v
theories/Utf8.v
theories/IndexMap.v
theories/Block.v
theories/BlockSpec.v
theories/BlockProofs.v
theories/Props_Block.v
theories/Incremental.v
theories/Compression.v
theories/CompressionProofs.v
theories/Props_Compression.v
theories/Progress.v
theories/Props_Progress.v
theories/Protocol.v
theories/ProtocolSpec.v
theories/ProtocolProofs.v
theories/Props_Protocol.v
theories/Connection.v
theories/ConnectionSpec.v
theories/ConnectionProofs.v
theories/Props_Connection.v
theories/ReaderLoop.v
theories/ReaderLoopProofs.v
theories/ReaderSpec.v
theories/ReaderExact.v
theories/Props_Reader.v
theories/Api.v
theories/ApiProofs.v
theories/MarkerProofs.v
theories/Props_Api.v
theories/Props_Marker.v
theories/Partial.v
theories/PartialProofs.v
theories/Props_Partial.v
theories/Calendar.v
theories/Literal.v
theories/Numeral.v
theories/NumeralProofs.v
theories/LiteralSpec.v
theories/CalendarSpec.v
theories/CalendarProofs.v
theories/LiteralProofs.v
theories/Props_Literal.v
theories/Query.v
theories/QuerySpec.v
theories/QueryProofs.v
theories/Props_Query.v
theories/Numeric.v
theories/NumericSpec.v
theories/NumericProofs.v
theories/Props_Numeric.v
theories/RawRow.v
theories/RawRowProofs.v
theories/Props_Row.v
theories/Convert.v
theories/ConvertSpec.v
theories/ConvertProofs.v
theories/ConvertWire.v
theories/ConvertSafe.v
theories/Props_Convert.v
theories/DecodeTyped.v
theories/DecodeBounds.v
theories/Hashing.v
theories/HashingProofs.v
theories/HashInjective.v
theories/GuessProofs.v
theories/Props_Values.v
theories/Lock.v
theories/LockProofs.v
theories/LockSql.v
theories/Props_Lock.v
theories/Migrate.v
theories/MigrateProofs.v
theories/Props_Migrate.v
theories/Rename.v
theories/RenameProofs.v
theories/Props_Rename.v
theories/Attrs.v
theories/AttrSpec.v
theories/AttrProofs.v
theories/Props_Attrs.v
theories/Derive.v
theories/DeriveSpec.v
theories/DeriveProofs.v
theories/DeriveProofs2.v
theories/DeriveProofs3.v
theories/DeriveProofs4.v
theories/DeriveSafe.v
theories/NestedSpec.v
theories/NestedProofs.v
theories/FlatSpec.v
theories/FlatProofs.v
theories/WriteSpec.v
theories/WriteProofs.v
theories/Props_Derive.v
theories/WireEncode.v
theories/SharedDict.v
theories/BlockWire.v
theories/FrameWire.v
theories/Props_WireFormat.v
theories/Geo.v
theories/GeoProofs.v
theories/Props_Geo.v
theories/Manager.v
theories/Props_Manager.v
theories/Session.v
theories/SessionSpec.v
theories/SessionProofs.v
theories/Props_Session.v
theories/ValidateSpec.v
theories/Props_Validate.v
theories/SendSpec.v
theories/SendProofs.v
theories/Props_Send.v
theories/TypeGrammar.v
theories/TypeGrammarProofs.v
theories/Props_Grammar.v
theories/ConnectionExact.v
theories/LivenessSpec.v
theories/LivenessProofs.v
theories/Props_Liveness.v
theories/TripSpec.v
theories/TripProofs.v
theories/Props_Trip.v
theories/StoreSpec.v
theories/StoreProofs.v
theories/Props_Store.v
theories/Utf8Spec.v
theories/Utf8Proofs.v
theories/Props_Utf8.v
theories/Heredoc.v
theories/Props_QueryText.v
theories/SqlLex.v
theories/SqlLexProofs.v
theories/Props_Inject.v
theories/DeriveErrors.v
theories/Props_Blame.v
theories/Float64.v
theories/FloatSpec.v
theories/FloatProofs.v
theories/FloatMono.v
theories/Props_Float.v
theories/Bounds.v
theories/BoundSpec.v
theories/BoundProofs.v
theories/Props_Bounds.v
theories/ReadSpec.v
theories/ReadProofs.v
theories/ToSqlSpec.v
theories/ToSqlProofs.v
theories/Props_Read.v
theories/ScalarProofs.v
theories/Props_Scalars.v
theories/SerdeTime.v
theories/SerdeTimeProofs.v
theories/Props_SerdeTime.v
theories/Json.v
theories/JsonSpec.v
theories/JsonProofs.v
theories/Props_Json.v
theories/Declare.v
theories/DeclareSpec.v
theories/DeclareProofs.v
theories/Props_Declare.v
theories/ServeSpec.v
theories/ServeProofs.v
theories/Props_Serve.v
theories/Reserve.v
theories/ReserveSpec.v
theories/ReserveProofs.v
theories/Props_Reserve.v
theories/Broadcast.v
theories/BroadcastSpec.v
theories/BroadcastProofs.v
theories/Props_Broadcast.v
theories/NoBf16.v
theories/NoBf16Spec.v
theories/NoBf16Proofs.v
theories/Props_NoBf16.v
theories/Lost.v
theories/Props_Lost.v
theories/Errors.v
theories/LockCalls.v
theories/LockCallsProofs.v
theories/Props_LockCalls.v
theories/Props_Errors.v
theories/Bootstrap.v
theories/BootstrapProofs.v
theories/Props_Bootstrap.v
theories/Props_LockFair.v
theories/Props_Write.v
