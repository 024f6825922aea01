{"id": "C01", "title": "Field header round trip", "statement": "Encoding a field header from a 16-bit field number, an 8-bit type and a final-40 value and decoding it returns the same three values; a final-40 value above 2^40-1 panics instead of being truncated; updating only the number, only the type or only the final-40 part leaves the other two parts unchanged.", "quantifier": "every field number, type, final-40 value, and every prior buffer content", "why_tests_cant": "2^64 headers; the masks and shifts must be right for all of them", "anchors": ["clawc/languages/go/segment/header.go:EncodeHeader", "clawc/languages/go/segment/header.go:DecodeHeader", "clawc/languages/go/segment/header.go:EncodeHeaderFieldNum", "clawc/languages/go/segment/header.go:EncodeHeaderFieldType", "clawc/languages/go/segment/header.go:EncodeHeaderFinal40"]}
{"id": "C02", "title": "Map and Any header packing", "statement": "The key type, value type and 24-bit size packed in a map header, and the stored type and 32-bit size packed in an Any header, are read back unchanged; an oversize map panics instead of being truncated.", "quantifier": "every key type, value type, stored type and size", "why_tests_cant": "bit-field overlap errors show up only for particular values", "anchors": ["clawc/languages/go/segment/header.go:EncodeMapHeader", "clawc/languages/go/segment/header.go:DecodeMapHeader", "clawc/languages/go/segment/any.go:EncodeAnyHeader", "clawc/languages/go/segment/any.go:DecodeAnyHeader"]}
{"id": "C03", "title": "Scalar read-your-write", "statement": "After SetX(s,f,v) for any scalar type X, GetX(s,f) returns v (for floats: bit pattern, except that -0 reads back as +0).", "quantifier": "every struct state reachable through the API, every field, every value of every scalar type", "why_tests_cant": "64-bit value domains times unbounded histories", "anchors": ["clawc/languages/go/segment/scalar.go:SetBool", "clawc/languages/go/segment/scalar.go:SetInt64", "clawc/languages/go/segment/scalar.go:GetInt64", "clawc/languages/go/segment/struct.go:insertField"]}
{"id": "C04", "title": "Field independence", "statement": "Setting or clearing one field never changes what any getter returns for any other field.", "quantifier": "every reachable struct state, every pair of distinct fields, every value", "why_tests_cant": "insert/replace/remove shift every later byte; a wrong offset update shows only for specific neighbour combinations", "anchors": ["clawc/languages/go/segment/struct.go:insertField", "clawc/languages/go/segment/struct.go:removeField", "clawc/languages/go/segment/struct.go:updateFieldOffsets"]}
{"id": "C05", "title": "Sparse encoding", "statement": "Setting a scalar, string or bytes field to its zero value makes the encoded message identical to one in which the field was never set, and the field is then reported absent.", "quantifier": "every reachable state, field and zero value", "why_tests_cant": "must hold for every history", "anchors": ["clawc/languages/go/segment/scalar.go", "clawc/languages/go/segment/bytes.go:SetBytes", "clawc/languages/go/segment/struct.go:removeField", "clawc/languages/go/segment/struct.go:HasField"]}
{"id": "C06", "title": "Wire layout invariant", "statement": "After any sequence of API calls the buffer is an 8-byte struct header followed by the present fields in strictly increasing field-number order with no gap or overlap, the header's size equals the buffer length, and the internal position of every field is exact.", "quantifier": "every sequence of set/clear calls of any length", "why_tests_cant": "histories are unbounded", "anchors": ["clawc/languages/go/segment/struct.go:insertField", "clawc/languages/go/segment/struct.go:findInsertPosition", "clawc/languages/go/segment/struct.go:updateHeaderSize", "clawc/languages/go/segment/segment.go:InsertAt", "clawc/languages/go/segment/segment.go:RemoveAt", "clawc/languages/go/segment/segment.go:ReplaceAt"]}
{"id": "C07", "title": "Canonical encoding", "statement": "Two structs that hold the same field values encode to identical bytes however those values were reached.", "quantifier": "every pair of histories ending in the same field values", "why_tests_cant": "pairs of unbounded histories", "anchors": ["clawc/languages/go/segment/struct.go:insertField", "clawc/languages/go/segment/struct.go:Marshal"]}
{"id": "C08", "title": "Marshal/Unmarshal round trip", "statement": "Unmarshalling the marshalled bytes into a fresh struct with the same mapping succeeds and every getter returns the same value as on the original.", "quantifier": "every reachable struct, every field, every type of field", "why_tests_cant": "every encodable message, unbounded size", "anchors": ["clawc/languages/go/segment/struct.go:Marshal", "clawc/languages/go/segment/struct.go:Unmarshal", "clawc/languages/go/segment/bytes.go:parseFieldIndex"]}
{"id": "C09", "title": "Schema evolution", "statement": "A reader whose schema has fewer (or more) fields reads every field it shares with the writer with the writer's value and sees the remaining ones as unset; extra fields are skipped, not misread.", "quantifier": "every reachable message and every reader field count", "why_tests_cant": "all writer/reader pairs", "anchors": ["clawc/languages/go/segment/bytes.go:parseFieldIndex", "clawc/languages/go/segment/struct.go:FieldOffset"]}
{"id": "C10", "title": "Decoding terminates", "statement": "Reading a field after a successful Unmarshal terminates, whatever the bytes were.", "quantifier": "every byte string accepted by Unmarshal", "why_tests_cant": "non-termination cannot be tested; the input space is all byte strings", "anchors": ["clawc/languages/go/segment/bytes.go:parseFieldIndex", "clawc/languages/go/segment/struct.go:Unmarshal"]}
{"id": "C11", "title": "IsSet trailer is transparent", "statement": "With IsSet tracking on, the marshalled message still decodes, on every reader, to the same field values.", "quantifier": "every mapping size, every reachable struct", "why_tests_cant": "depends on which bits are set together", "anchors": ["clawc/languages/go/segment/struct.go:appendIsSetBitfield", "clawc/languages/go/segment/struct.go:markFieldSet", "clawc/languages/go/segment/bytes.go:parseFieldIndex"]}
{"id": "C12", "title": "String and bytes read-your-write", "statement": "After SetBytes/SetString(s,f,v) the getter returns exactly v (nil for empty v), for any content and length below 4 GiB.", "quantifier": "every reachable state, every byte string", "why_tests_cant": "padding makes length classes; content arbitrary", "anchors": ["clawc/languages/go/segment/bytes.go:SetBytes", "clawc/languages/go/segment/bytes.go:GetBytes", "clawc/languages/go/segment/bytes.go:SetStringAsBytes"]}
{"id": "C13", "title": "Nested struct round trip", "statement": "After SetNestedStruct(p,f,c), the struct returned by GetNestedStruct(p,f) has the same value in every field as c; an empty or nil child makes the field absent.", "quantifier": "every reachable parent and child, every field of the child", "why_tests_cant": "recursive messages", "anchors": ["clawc/languages/go/segment/bytes.go:SetNestedStruct", "clawc/languages/go/segment/bytes.go:GetNestedStruct"]}
{"id": "C14", "title": "Bool list round trip", "statement": "A bool list written through the API, marshalled and read back by any reader has the same length and items.", "quantifier": "every list of booleans of any length, every reachable parent", "why_tests_cant": "bit packing has length classes modulo 64", "anchors": ["clawc/languages/go/segment/lists.go:Bools.SyncToSegment", "clawc/languages/go/segment/getters.go:GetListBools"]}
{"id": "C15", "title": "Number list round trip", "statement": "A list of any numeric type written through the API, marshalled and read back has the same length and the same items.", "quantifier": "every numeric type, every list, every reachable parent", "why_tests_cant": "unbounded lists", "anchors": ["clawc/languages/go/segment/lists.go:Numbers.SyncToSegment", "clawc/languages/go/segment/getters.go:GetListNumbers"]}
{"id": "C16", "title": "String/bytes list round trip", "statement": "A list of strings (or byte slices) written through the API, marshalled and read back has the same length and items.", "quantifier": "every list of strings", "why_tests_cant": "fails only for particular padding classes", "anchors": ["clawc/languages/go/segment/lists.go:Strings.SyncToSegment", "clawc/languages/go/segment/getters.go:GetListStrings"]}
{"id": "C17", "title": "Struct list round trip", "statement": "A list of structs written through the API, marshalled and read back has the same length and the items have the same field values.", "quantifier": "every list of structs, every reachable parent", "why_tests_cant": "recursive, unbounded", "anchors": ["clawc/languages/go/segment/lists.go:Structs.SyncToSegment", "clawc/languages/go/segment/lists.go:Structs.parseFromSegment"]}
{"id": "C18", "title": "List edits reach the wire", "statement": "Any change made through a list object returned by the generated accessor is contained in the next Marshal output.", "quantifier": "every history of list edits, marshals and unmarshals", "why_tests_cant": "depends on the history, not on a single call", "anchors": ["clawc/languages/go/segment/struct.go:syncDirtyLists", "clawc/languages/go/segment/struct.go:RegisterDirtyList", "clawc/languages/go/segment/getters.go:GetListStrings", "clawc/internal/idl/struct.tmpl"]}
{"id": "C19", "title": "Map API is a finite map", "statement": "Set, Get, Has, Delete, Len, Keys and the iteration order behave as a finite map with keys in increasing order, for every history.", "quantifier": "every history of map operations, every key and value", "why_tests_cant": "binary search over unbounded histories", "anchors": ["clawc/languages/go/segment/maps.go:Maps.Set", "clawc/languages/go/segment/maps.go:Maps.Get", "clawc/languages/go/segment/maps.go:Maps.Delete"]}
{"id": "C20", "title": "Map encoding deterministic", "statement": "The bytes written for a map depend only on its contents, not on insertion order.", "quantifier": "every pair of histories with the same final contents", "why_tests_cant": "pairs of histories", "anchors": ["clawc/languages/go/segment/maps.go:Maps.SyncToSegment"]}
{"id": "C21", "title": "Map round trip", "statement": "A map written, marshalled and read back has the same entries.", "quantifier": "every map of every key/value type", "why_tests_cant": "fails only for particular sizes", "anchors": ["clawc/languages/go/segment/maps.go:Maps.SyncToSegment", "clawc/languages/go/segment/maps.go:ParseMapFromSegment"]}
{"id": "C22", "title": "Any field round trip and type check", "statement": "SetAny followed by GetAny with a value of the same type yields the same field values; decoding into a different type is refused; raw bytes read by GetAnyRaw and re-written by SetAnyRaw give an identical field.", "quantifier": "every struct value, every pair of type hashes", "why_tests_cant": "every stored struct", "anchors": ["clawc/languages/go/segment/any.go:SetAny", "clawc/languages/go/segment/any.go:GetAny", "clawc/languages/go/segment/any.go:GetAnyRaw", "clawc/languages/go/segment/any.go:SetAnyRaw"]}
{"id": "C23", "title": "List-of-Any round trip", "statement": "SetListAny/SetListAnyRaw followed by GetListAnyLen/GetListAnyRaw returns the same number of items with the same type hash and bytes, and the following fields are still found.", "quantifier": "every list of structs", "why_tests_cant": "scanning over unbounded lists", "anchors": ["clawc/languages/go/segment/any.go:SetListAny", "clawc/languages/go/segment/any.go:GetListAnyRaw", "clawc/languages/go/segment/bytes.go:parseFieldIndex"]}
{"id": "C24", "title": "Unmarshal replaces the content", "statement": "After Unmarshal succeeds the struct's fields are exactly those of the message: fields absent from the message read as unset.", "quantifier": "every prior struct state, every message", "why_tests_cant": "depends on prior history", "anchors": ["clawc/languages/go/segment/struct.go:Unmarshal", "clawc/languages/go/segment/bytes.go:parseFieldIndex"]}
{"id": "C25", "title": "Stream framing", "statement": "Messages written one after another with MarshalWriter are read back one by one with UnmarshalReader: each call consumes exactly one message and leaves the rest of the stream; a truncated stream is an error.", "quantifier": "every sequence of messages, every truncation point", "why_tests_cant": "unbounded sequences, every crash point", "anchors": ["clawc/languages/go/segment/struct.go:MarshalWriter", "clawc/languages/go/segment/struct.go:UnmarshalReader"]}
{"id": "C26", "title": "Mutation recording", "statement": "With recording on, the drained operations are exactly the mutations performed, in order, and applying the scalar/bytes ones to the starting struct reproduces the final struct. Refuted for ClearField and for number lists that were never written; proved for the setters of scalars, strings, bytes and nested structs, and for edits of lists.", "quantifier": "every history of mutations", "why_tests_cant": "unbounded histories", "anchors": ["clawc/languages/go/segment/struct.go:RecordOp", "clawc/languages/go/segment/struct.go:DrainRecordedOps", "languages/go/patch/patch.go", "languages/go/patch/apply.go"]}
{"id": "C27", "title": "Diff/Apply law", "statement": "Apply(from, Diff(from,to)) makes every field of from equal to to's. Refuted for nested structs that grow and for number lists that were never written; proved for all other messages of scalars, strings, bytes and nested structs, and for lists of bools, numbers, strings and bytes. Lists of structs are in C127, maps and Any fields in C128.", "quantifier": "every pair of structs with the same mapping", "why_tests_cant": "pairs of arbitrary messages", "anchors": ["languages/go/patch/diff.go:Diff", "languages/go/patch/apply.go:Apply"]}
{"id": "C28", "title": "Pack/Unpack round trip", "statement": "Unpack(Pack(m)) = m for every non-empty message whose length is a multiple of 8, also when other bytes follow. Other lengths are refused by Pack. The empty message is not packed: Pack returns nil, which Unpack refuses.", "quantifier": "every byte string of length 8n, up to 2^47 bytes, any contents of the buffer pools", "why_tests_cant": "run-length classes over unbounded strings", "anchors": ["languages/go/pack/pack.go:Pack", "languages/go/pack/pack.go:Unpack"]}
{"id": "C29", "title": "Packed size bound", "statement": "Pack never writes more bytes than the buffer it sized for the message, and PackedSize/UnpackedSize equal the real sizes.", "quantifier": "every byte string of length 8n", "why_tests_cant": "worst case over all inputs", "anchors": ["languages/go/pack/pack.go:maxPackedSize", "languages/go/pack/pack.go:PackedSize", "languages/go/pack/pack.go:UnpackedSize"]}
{"id": "C30", "title": "Unpack is total", "statement": "Unpack returns an error, and does not panic, on every malformed input.", "quantifier": "every byte string", "why_tests_cant": "all byte strings", "anchors": ["languages/go/pack/pack.go:Unpack", "languages/go/pack/pack.go:unpackInto"]}
{"id": "C31", "title": "8-byte alignment", "statement": "Every marshalled message has a length that is a multiple of 8, so that it can be packed.", "quantifier": "every reachable struct", "why_tests_cant": "depends on list lengths", "anchors": ["clawc/languages/go/segment/lists.go:Numbers.SyncToSegment", "languages/go/pack/pack.go:Pack", "docs/encoding/encoding.md"]}
{"id": "C32", "title": "Views are isolated", "statement": "Changing a struct obtained with GetNestedStruct never changes sibling fields of its parent, and the parent stays well formed.", "quantifier": "every parent, child and mutation", "why_tests_cant": "depends on slice capacity, aliasing", "anchors": ["clawc/languages/go/segment/bytes.go:GetNestedStruct", "clawc/languages/go/segment/segment.go:EnsureCapacity", "clawc/languages/go/segment/segment.go:InsertAt"]}
{"id": "C33", "title": "Text string escaping round trip", "statement": "Unquoting the escaped form of a string in clawtext gives back the string; the escaped form contains no bare quote or newline.", "quantifier": "every valid string", "why_tests_cant": "all strings", "anchors": ["languages/go/clawtext/writer.go:appendEscapedString", "languages/go/clawtext/parser.go:unquoteString"]}
{"id": "C34", "title": "JSON string escaping", "statement": "The JSON string literal written for any field value is a valid JSON string literal that denotes that value.", "quantifier": "every string", "why_tests_cant": "all strings", "anchors": ["languages/go/clawjson/clawjson.go:appendEscapedString"]}
{"id": "C35", "title": "JSON output is well formed", "statement": "The JSON written for any struct is a syntactically valid JSON document.", "quantifier": "every struct value: any nesting of structs, lists and maps", "why_tests_cant": "recursive token trees", "anchors": ["languages/go/clawjson/clawjson.go:writeJSON", "languages/go/clawjson/clawjson.go:writeValue", "clawc/internal/render/golang/templates/clawiter.tmpl"]}
{"id": "C36", "title": "Token accessors", "statement": "A scalar stored in a token with SetX is returned by the X accessor, for token values and map keys.", "quantifier": "every scalar value of every type", "why_tests_cant": "64-bit domains", "anchors": ["clawc/languages/go/clawiter/token.go"]}
{"id": "C37", "title": "Token stream laws", "statement": "Peek never consumes, Next returns exactly the tokens of the source in order, and SkipValue consumes exactly one value.", "quantifier": "every token sequence, every interleaving of Peek/Next/SkipValue", "why_tests_cant": "unbounded sequences and nesting", "anchors": ["clawc/languages/go/clawiter/ingest.go:TokenStream", "clawc/languages/go/clawiter/ingest.go:SkipValue"]}
{"id": "C38", "title": "No send on, or double close of, a session channel (client)", "statement": "Whatever the server sends and however calls, Close and GracefulClose interleave, the client never sends on a closed session channel and never closes one twice.", "quantifier": "every message sequence and schedule", "why_tests_cant": "schedules", "anchors": ["rpc/client/client.go:readLoop", "rpc/client/client.go:handlePayload", "rpc/client/client.go:handleClose", "rpc/client/client.go:Close"]}
{"id": "C39", "title": "No send on, or double close of, a session channel (server)", "statement": "As C38 for a server connection, including Cancel, handler completion and shutdown.", "quantifier": "every message sequence and schedule", "why_tests_cant": "schedules", "anchors": ["rpc/server/conn.go:serve", "rpc/server/conn.go:handlePayload", "rpc/server/conn.go:handleClose", "rpc/server/conn.go:handleCancel", "rpc/server/conn.go:runHandler"]}
{"id": "C40", "title": "Draining admits nothing new", "statement": "Once GracefulClose has marked a connection as draining, no new session is created on it (client and server side), under any schedule.", "quantifier": "every schedule", "why_tests_cant": "schedules", "anchors": ["rpc/client/client.go:openSession", "rpc/client/client.go:GracefulClose", "rpc/server/conn.go:handleOpen", "rpc/server/conn.go:GracefulClose"]}
{"id": "C41", "title": "Graceful close completes", "statement": "When a draining client connection has no session left and none pending, GracefulClose returns without waiting for its context to expire.", "quantifier": "every schedule", "why_tests_cant": "liveness over schedules", "anchors": ["rpc/client/client.go:GracefulClose", "rpc/client/client.go:checkDrained", "rpc/client/client.go:openSession"]}
{"id": "C42", "title": "Graceful shutdown keeps in-flight calls", "statement": "A GoAway sent by a gracefully closing server lets the client's in-flight sessions finish.", "quantifier": "every schedule and set of sessions", "why_tests_cant": "schedules", "anchors": ["rpc/client/client.go:handleGoAway", "rpc/client/client.go:setFatalError", "rpc/server/conn.go:goAway"]}
{"id": "C43", "title": "Ordered, lossless delivery", "statement": "The payloads a session's consumer receives are, in order and without loss, the payloads the peer sent on that session that were within the size limit and decompressible.", "quantifier": "every interleaving of sessions, every arrival/consumption schedule", "why_tests_cant": "schedules, unbounded streams", "anchors": ["rpc/client/client.go:handlePayload", "rpc/client/client.go:recvIter", "rpc/server/conn.go:handlePayload", "rpc/server/handlers.go:Recv"]}
{"id": "C44", "title": "Responses reach their request", "statement": "A synchronous call returns only a payload that the peer sent with that call's request id.", "quantifier": "every interleaving of concurrent calls and responses", "why_tests_cant": "schedules", "anchors": ["rpc/client/sync.go:doCall"]}
{"id": "C45", "title": "Session ids are unique", "statement": "Two live sessions of a connection never share an id (until 2^32 opens).", "quantifier": "every sequence of opens and closes", "why_tests_cant": "unbounded histories", "anchors": ["rpc/server/conn.go:handleOpen", "rpc/client/client.go:openSession"]}
{"id": "C46", "title": "Packed connections stay in sync", "statement": "On a connection that negotiated packing, both ends agree for every message on whether it is packed.", "quantifier": "every message sequence", "why_tests_cant": "unbounded protocol runs", "anchors": ["rpc/client/client.go:sendMsg", "rpc/client/client.go:readPackedMsg", "rpc/server/conn.go:sendMsg", "rpc/server/conn.go:readPackedMsg"]}
{"id": "C47", "title": "First fatal error wins", "statement": "The connection error reported to users is the first one that occurred and never changes afterwards.", "quantifier": "every schedule of failures", "why_tests_cant": "schedules", "anchors": ["rpc/client/client.go:setFatalError"]}
{"id": "C48", "title": "Credentials never leave an insecure transport", "statement": "Per-call credentials that require transport security are never requested from, or sent by, a connection that is not secure; the call fails instead.", "quantifier": "every credential provider and metadata, every history of calls", "why_tests_cant": "security property over all inputs", "anchors": ["rpc/client/client.go:applyCredentials"]}
{"id": "C49", "title": "Round robin fairness", "statement": "Over any window of consecutive picks from an unchanged list of n ready connections, the pick counts of any two differ by at most one, and every pick is a member of the list, as long as the 64-bit counter does not wrap around inside the window.", "quantifier": "every list, window and starting counter", "why_tests_cant": "unbounded windows", "anchors": ["rpc/client/pool/balancer.go:RoundRobin", "rpc/transport/resolver/picker.go:RoundRobinPicker"]}
{"id": "C50", "title": "Weighted and priority picks", "statement": "Over a full cycle the weighted balancer picks each connection in proportion to its weight, a weight of zero counting as one; the priority picker only picks addresses of minimal priority, evenly.", "quantifier": "every weight/priority vector, every window", "why_tests_cant": "unbounded", "anchors": ["rpc/client/pool/balancer.go", "rpc/transport/resolver/picker.go:PriorityPicker"]}
{"id": "C51", "title": "Sub-connection shutdown is final", "statement": "After shutdown a sub-connection never becomes ready again and holds no open connection.", "quantifier": "every interleaving of connect attempts, failures, health checks and shutdown", "why_tests_cant": "schedules", "anchors": ["rpc/client/pool/subconn.go"]}
{"id": "C52", "title": "No connection leak", "statement": "Every connection a sub-connection ever established is either its current one or closed.", "quantifier": "every interleaving of connect attempts and failures", "why_tests_cant": "schedules", "anchors": ["rpc/client/pool/subconn.go:connectWithRetry", "rpc/client/pool/subconn.go:handleConnectionFailure"]}
{"id": "C53", "title": "Pool Close is idempotent", "statement": "Any number of concurrent Close/GracefulClose calls on a pool return without panicking.", "quantifier": "every schedule", "why_tests_cant": "schedules", "anchors": ["rpc/client/pool/pool.go:Close", "rpc/client/pool/pool.go:GracefulClose"]}
{"id": "C54", "title": "Retry attempts", "statement": "The retry interceptor invokes the call at most the documented number of times, stops at the first success or non-retryable error, and returns that outcome.", "quantifier": "every policy and every sequence of outcomes", "why_tests_cant": "unbounded policies", "anchors": ["rpc/retry/retry.go:UnaryClientInterceptor"]}
{"id": "C55", "title": "Backoff bounds", "statement": "Waits between attempts never exceed MaxBackoff and never decrease for multiplier >= 1. The bound is refuted for the first wait, which is InitialBackoff even when that is larger.", "quantifier": "every policy", "why_tests_cant": "unbounded attempts", "anchors": ["rpc/retry/retry.go:UnaryClientInterceptor"]}
{"id": "C56", "title": "Hedging", "statement": "The hedging interceptor sends at most 1+MaxHedgedRequests requests, returns the first success, and returns a failure only if a fatal error or all failures occurred.", "quantifier": "every policy and every arrival order", "why_tests_cant": "schedules", "anchors": ["rpc/hedge/hedge.go:UnaryClientInterceptor"]}
{"id": "C57", "title": "Service config precedence", "statement": "The configuration used for a method is that of the most specific matching pattern.", "quantifier": "every configuration and method", "why_tests_cant": "all configurations", "anchors": ["rpc/serviceconfig/serviceconfig.go:GetMethodConfig"]}
{"id": "C58", "title": "Target parsing", "statement": "Parsing the printed form of a target gives the target back; a string without scheme is taken verbatim as endpoint.", "quantifier": "every target string", "why_tests_cant": "all strings", "anchors": ["rpc/transport/resolver/parse.go:Parse", "rpc/transport/resolver/parse.go:String"]}
{"id": "C59", "title": "Metadata is case-insensitive", "statement": "Metadata lookups and updates do not depend on key case; converting to wire form and back preserves the metadata.", "quantifier": "every key, value and history", "why_tests_cant": "all strings", "anchors": ["rpc/metadata/metadata.go"]}
{"id": "C60", "title": "Interceptor chains", "statement": "A chain of interceptors behaves as their nesting in the order given; chaining is associative and the empty chain is absent.", "quantifier": "every list of interceptors and every handler", "why_tests_cant": "higher-order, unbounded lists", "anchors": ["rpc/interceptor/chain.go"]}
{"id": "C61", "title": "Handler registry", "statement": "A registered handler is found under exactly its package/service/call and a second registration for the same triple is refused.", "quantifier": "every history of registrations", "why_tests_cant": "all names", "anchors": ["rpc/server/registry.go"]}
{"id": "C62", "title": "Connection limit", "statement": "The number of connections being served never exceeds the configured maximum and none is accepted after shutdown.", "quantifier": "every schedule of accepts, closes and shutdown", "why_tests_cant": "schedules", "anchors": ["rpc/server/server.go:Serve", "rpc/server/server.go:Shutdown"]}
{"id": "C63", "title": "Validation gate", "statement": "With the validation interceptor installed the handler never sees a request, and the caller never a response, that its validator rejects.", "quantifier": "every validator, request and handler", "why_tests_cant": "higher-order", "anchors": ["rpc/validate/validate.go"]}
{"id": "C64", "title": "Compression transparency", "statement": "Decompress(Compress(x)) = x for every registered algorithm given the algorithm itself round-trips; unknown algorithms are an error, never silent.", "quantifier": "every payload and registry history", "why_tests_cant": "all payloads", "anchors": ["rpc/compress/compress.go"]}
{"id": "C65", "title": "Pool registration", "statement": "Concurrent registrations of segment pools never lose one: after RegisterPool(m) returns, m is registered forever.", "quantifier": "every interleaving of any number of registrations", "why_tests_cant": "schedules (lock-free CAS loop)", "anchors": ["clawc/languages/go/segment/segment.go:RegisterPool"]}
{"id": "C66", "title": "A pool serves calls from its ready backends", "statement": "When a backend of a pool is connected and healthy, calls on the pool are given a ready backend, and a call waiting for readiness is woken.", "quantifier": "every schedule of connects, failures, health checks, calls and Close", "why_tests_cant": "lost wake-ups and starvation depend on the schedule", "anchors": ["rpc/client/pool/pool.go:getSubConnWait", "rpc/client/pool/health.go:updateReadySubConns"]}
{"id": "C67", "title": "Sessions do not hold each other up", "statement": "A session whose consumer is slow or has stopped reading does not keep the other sessions of the same client connection from receiving their payloads.", "quantifier": "every interleaving of the read loop, the consumers and the senders of a connection", "why_tests_cant": "needs a schedule in which one consumer stalls while its buffer is full; a test with draining consumers never shows it", "anchors": ["rpc/client/client.go:handlePayload", "rpc/client/client.go:readLoop"]}
{"id": "C68", "title": "Cancelling one call leaves the other calls of the client alone", "statement": "When the context of one synchronous call ends, only that call is cancelled; the other calls made through the same client, concurrently or later, still reach the handler.", "quantifier": "every order of requests and cancellations on a session, every request id named by a cancellation", "why_tests_cant": "needs two calls in flight on one client and a cancellation between them, for every interleaving", "anchors": ["rpc/client/sync.go:doCall", "rpc/server/conn.go:handleCancel"]}
{"id": "C69", "title": "Calls on an ended session fail cleanly", "statement": "After the server ended the session of a synchronous client (for instance because its handler returned an error), the calls waiting on it and later calls return an error; none of them crashes the program.", "quantifier": "every interleaving of concurrent calls with the end of the session", "why_tests_cant": "the outcome depends on which of several ready channels a select chooses, and on which call sees the end first", "anchors": ["rpc/client/sync.go:doCall", "rpc/client/client.go:handleClose"]}
{"id": "C70", "title": "Stream interceptors may wrap the stream", "statement": "A stream interceptor that hands its handler a wrapped stream (as the documented validation interceptor does) never crashes the server: the handler runs on the wrapped stream.", "quantifier": "every RPC kind, every chain of stream interceptors, wrapping or not", "why_tests_cant": "depends on the combination of RPC kind and interceptor chain", "anchors": ["rpc/server/server.go:runBiDirHandler", "rpc/server/server.go:runSendHandler", "rpc/server/server.go:runRecvHandler", "rpc/validate/validate.go:StreamServerInterceptor"]}
{"id": "C71", "title": "Text string field round trip", "statement": "The line clawtext writes for a string field is parsed back to the same string.", "quantifier": "every Unicode string and every way the lexer may end the first word of the value", "why_tests_cant": "all strings", "anchors": ["languages/go/clawtext/writer.go:writeClawtext", "languages/go/clawtext/parser.go:parseQuotedString"]}
{"id": "C72", "title": "Walk stops on request", "statement": "Once the callback of Walk has returned false it is not called again.", "quantifier": "every struct value, every callback and every point at which it stops", "why_tests_cant": "any nesting, any stopping point", "anchors": ["clawc/internal/render/golang/templates/clawiter.tmpl"]}
{"id": "C73", "title": "JSON output represents the struct", "statement": "The JSON document written for a struct has one member per field, in the order of the declaration and named after it; each value represents the field's value: numbers by their value, strings by their text, bytes as base64, enums by name (or number if asked), structs, lists and maps element by element, map keys included; an Any of a registered type shows the value it holds, any other Any its hash and bytes.", "quantifier": "every struct value, every nesting, every registry", "why_tests_cant": "recursive values of any depth and content", "anchors": ["languages/go/clawjson/clawjson.go:writeJSON", "languages/go/clawjson/clawjson.go:writeValue", "languages/go/clawjson/clawjson.go:appendEscapedString"]}
{"id": "C74", "title": "Each open gets its own answer", "statement": "A call that opens a session on a client connection returns the session the server opened for that very call: when it succeeds, the server has answered this call's Open with a success naming that session; when the server refuses, the call fails. Two calls never get the same session, and a call that waits for its answer either is still registered on an open connection or can return at once.", "quantifier": "every number of concurrent callers, every message the server sends, every interleaving", "why_tests_cant": "answers may arrive in any order, late, twice or not at all", "anchors": ["rpc/client/client.go:openSession", "rpc/client/client.go:handleOpenAck"]}
{"id": "C75", "title": "A stream's end and its error are reported", "statement": "Once the server has closed a session and what it sent before has been consumed, the receive loop of that stream ends; it ends only then, when the connection is lost, when the stream is cancelled or when an end-of-stream payload was received. The values yielded are the payloads the server sent, in order, up to that end, and the error reported is the one the server closed the session with.", "quantifier": "every history of messages, every interleaving of the read loop and the consumer", "why_tests_cant": "the close, the last payloads and the consumer race", "anchors": ["rpc/client/client.go:recvIter", "rpc/client/client.go:handleClose", "rpc/client/client.go:readLoop"]}
{"id": "C76", "title": "Ingest is the inverse of Walk", "statement": "Feeding the tokens that Walk emits for a struct into the Ingest method of a new struct of the same type gives a struct whose accessors all return what those of the first struct return; in general, Ingest into any struct takes over the fields in order, whatever tokens follow the end of the struct: numbers, strings, Any values and nested structs are replaced, lists extended, map entries set.", "quantifier": "every set of struct types, every message of any nesting, every target struct, any following tokens", "why_tests_cant": "recursive values of any depth, size and content, for every schema", "anchors": ["clawc/internal/render/golang/templates/clawingest.tmpl", "clawc/internal/render/golang/templates/clawiter.tmpl", "clawc/languages/go/clawiter/ingest.go"]}
{"id": "C77", "title": "Ingest ignores unknown fields on request and refuses them otherwise", "statement": "When unknown fields are to be ignored, ingesting the tokens of another version of a type sets each field both versions have, leaves every other field zero, and the unknown fields have no effect; when they are not to be ignored the first unknown field is an error.", "quantifier": "every pair of versions, every message, every position and type of unknown fields", "why_tests_cant": "any number of unknown fields of any type and nesting at any place", "anchors": ["clawc/internal/render/golang/templates/clawingest.tmpl", "clawc/languages/go/clawiter/ingest.go:SkipValue", "clawc/languages/go/clawiter/ingest.go:IngestOptions"]}
{"id": "C78", "title": "Ingest of arbitrary tokens ends with an error or a struct", "statement": "Whatever sequence of tokens is fed to Ingest, it comes to an end without a panic; a sequence that stops before the end of the struct is an error wherever it stops.", "quantifier": "every schema, every finite token sequence, every cut point", "why_tests_cant": "token sequences are unbounded and may be malformed anywhere", "anchors": ["clawc/internal/render/golang/templates/clawingest.tmpl", "clawc/languages/go/clawiter/ingest.go"]}
{"id": "C79", "title": "JSON round trip", "statement": "Unmarshalling with clawjson what Marshal wrote for a struct gives a struct whose accessors return what those of the first return.", "quantifier": "every set of struct types, every struct of any nesting, every JSON decoder that returns the tokens of each document", "why_tests_cant": "unboundedly many types, values and nestings; which kinds of values survive is a statement about all of them", "anchors": ["languages/go/clawjson/clawjson.go:Marshal", "languages/go/clawjson/clawjson.go:Unmarshal", "languages/go/clawjson/clawjson.go:jsonToTokens", "clawc/internal/render/golang/templates/clawingest.tmpl"]}
{"id": "C80", "title": "A JSON document is read as the struct it shows", "statement": "A JSON object whose members show the fields of a struct type is read as that struct: members may come in any order and be missing (the field is then zero), strings may use any escapes, lists may have any length; members the type does not have are ignored on request and are an error otherwise.", "quantifier": "every set of struct types, every document of any size and nesting, every order and selection of members", "why_tests_cant": "all documents, member orders and unknown members", "anchors": ["languages/go/clawjson/clawjson.go:Unmarshal", "languages/go/clawjson/clawjson.go:jsonToTokens", "clawc/languages/go/clawiter/ingest.go:SkipValue"]}
{"id": "C81", "title": "Unmarshalling arbitrary data as JSON ends with an error or a struct", "statement": "Whatever the data, clawjson.Unmarshal returns a struct or an error, without a panic or an endless loop; data of which the decoder yields only a part of the tokens of a document are an error.", "quantifier": "every data, every decoder, every struct type, every cut point", "why_tests_cant": "arbitrary input bytes", "anchors": ["languages/go/clawjson/clawjson.go:UnmarshalReader", "languages/go/clawjson/clawjson.go:jsonToTokens"]}
{"id": "C82", "title": "Text round trip", "statement": "The text clawtext.Marshal writes for a struct is read by clawtext.Unmarshal as the same struct, whatever the indentation, enum and byte options.", "quantifier": "every set of struct types, every struct of any size and nesting, every indentation, every option", "why_tests_cant": "all values of all types and all nestings", "anchors": ["languages/go/clawtext/clawtext.go:Marshal", "languages/go/clawtext/clawtext.go:Unmarshal", "languages/go/clawtext/writer.go", "languages/go/clawtext/parser.go"]}
{"id": "C83", "title": "Unmarshalling arbitrary text ends with an error or a struct", "statement": "Whatever the bytes, clawtext.Unmarshal returns a struct or an error, without a panic or an endless loop.", "quantifier": "every data, every lexer, every struct type, every prior content of the struct", "why_tests_cant": "arbitrary input bytes", "anchors": ["languages/go/clawtext/clawtext.go:Unmarshal", "languages/go/clawtext/parser.go"]}
{"id": "C84", "title": "Comments and empty lines do not change what a text says", "statement": "Empty lines, lines of comment and block comments put between the lines of a text change neither the struct that is read nor whether the text is refused.", "quantifier": "every text of any number of lines, every number and place of comments, every struct type", "why_tests_cant": "all texts and all ways to comment them", "anchors": ["languages/go/clawtext/parser.go:skipCommentsAndWhitespace", "languages/go/clawtext/parser.go:parseNestedStruct"]}
{"id": "C85", "title": "A text with errors is refused", "statement": "When a text does not have the form of a struct, clawtext.Unmarshal returns an error, and does not return the part it could read.", "quantifier": "every text, every struct type", "why_tests_cant": "every kind and place of error", "anchors": ["languages/go/clawtext/clawtext.go:UnmarshalReader", "languages/go/clawtext/parser.go:textToTokens", "languages/go/clawtext/parser.go:parseFields"]}
{"id": "C86", "title": "A text written as documented is read as the struct it shows", "statement": "clawtext.Unmarshal of a text in the documented form returns the struct the text shows: every named field has the value written for it, in whatever order the fields and map entries stand and however the words are spaced, and every other field is zero.", "quantifier": "every struct type, every text of any number of lines and any nesting of structs, lists and maps", "why_tests_cant": "all ways to lay out a text, all orders of fields and entries, all values", "anchors": ["docs/clawtext/clawtext.md", "languages/go/clawtext/parser.go:parseFields", "languages/go/clawtext/parser.go:parseValue", "languages/go/clawtext/parser.go:parseArray", "languages/go/clawtext/parser.go:parseMap", "languages/go/clawtext/parser.go:parseRawString"]}
{"id": "C87", "title": "A health check reports the status in force", "statement": "health.Check of a service returns the status that was set last with SetServingStatus for that service at some moment between the start and the end of the call; Serving for the server as a whole and ServiceUnknown for a service if none was set; an error only if the connection fails. ServingStatus on the server returns the status set last.", "quantifier": "every history of SetServingStatus calls and any number of checks at the same time, every service name and status", "why_tests_cant": "all interleavings of status changes and checks, all names", "anchors": ["rpc/health/service.go:Check", "rpc/health/service.go:SetServingStatus", "rpc/health/client.go:Check"]}
{"id": "C88", "title": "A plain Go struct survives NewXFromRaw, the wire and ToRaw", "statement": "A Raw struct given to the generated NewXxxFromRaw, marshalled, unmarshalled and read with ToRaw comes back equal (maps as sets of entries). Exceptions, each stated exactly: -0.0 comes back as 0, something empty as nil, a pointer to a struct in which nothing is set as nil, nil pointers in lists and maps are left out, values of type Any are dropped.", "quantifier": "every declaration of structs (any number of fields up to 2^16, any nesting, also recursive), every value of its Raw struct below 4 GiB whose string lists and maps are not followed by enough padding for one more item, any bytes behind the message", "why_tests_cant": "all declarations and all values at any depth", "anchors": ["clawc/internal/idl/struct.tmpl:NewXxxFromRaw", "clawc/internal/idl/struct.tmpl:ToRaw", "clawc/internal/idl/idl.go:RawType"]}
{"id": "C89", "title": "Reflection tells what is registered, to those who may know", "statement": "reflection.ListServices returns the packages, services and methods (with their types) that have a handler, each once, ordered by name on every level, no empty package or service; GetServiceInfo and GetMethodInfo find a service or a method if and only if it has a handler, with exactly its methods or its type. A request is answered if and only if its IP address is in one of the allowed networks (when there are any) and the token validator (when there is one) accepts the value of the first metadata pair named like the auth header; others get an error that does not depend on what is registered.", "quantifier": "every history of Register calls (names without a slash), every iteration order of the Go map, every request, every configuration, every address and metadata", "why_tests_cant": "all registries, all map orders, all access configurations", "anchors": ["rpc/reflection/service.go:ListServices", "rpc/reflection/service.go:GetServiceInfo", "rpc/reflection/service.go:GetMethodInfo", "rpc/reflection/service.go:checkAccess", "rpc/reflection/config.go:Validate", "rpc/reflection/client.go:ListServices", "rpc/transport/http/server.go:remoteAddr"]}
{"id": "C90", "title": "A schema text is read as the schema it shows", "statement": "A text in the schema language (comments, a package line, at most one version, options and import block in any order, then enums and structs) is accepted, and the schema read has the package, version, options and imports shown, the declarations in the order shown with their comments, every enum value with its number, and the fields of every struct ordered by their numbers, each with the name, comment and type shown; a type name stands for the enum or struct of that name wherever in the file, or in which imported package, it is declared. Words may be separated by any spaces, lines without words and comments may stand anywhere the language allows them.", "quantifier": "every schema text of the language in Spec/IdlText.v (any number of declarations, fields, values, imports and comments, any order of declarations), every set of files of imported packages", "why_tests_cant": "infinitely many schemas; order of declarations, comments and spaces combine", "anchors": ["clawc/internal/idl/idl.go:File.Start", "clawc/internal/idl/idl.go:Struct.field", "clawc/internal/idl/idl.go:Struct.Render", "clawc/internal/idl/options.go"]}
{"id": "C91", "title": "An accepted schema is well formed", "statement": "When the compiler accepts a schema file, the result is a schema: a valid package name, language version 0, no options or just IsSet(), imports with distinct names and paths with a package name in them, declared names valid and distinct; every enum is 8 or 16 bits, not empty, with valid, distinct names and distinct numbers below 65536; every struct has at least one field, its fields are numbered 0, 1, 2, ... and stand in this order, their names are valid, and every field has the type of a built-in, of a map with legal keys, of itself, of a declared enum (of its width) or struct, or is a name to be resolved, from an imported package if it has a package. Fields that code is generated for have the type of the declaration that their name stands for. (Not ensured, refuted: enum numbers fit the declared size; field names are distinct; a field number is what is written; the value type of a map is declared and is a struct; option text is kept; comments are kept.)", "quantifier": "every text (every sequence of lines of items from the lexer), every unicode classification", "why_tests_cant": "all texts, also malformed ones, of any length", "anchors": ["clawc/internal/idl/idl.go:File.ParsePackage", "clawc/internal/idl/idl.go:File.FindNext", "clawc/internal/idl/idl.go:Struct.parse", "clawc/internal/idl/idl.go:Enum.parse", "clawc/internal/idl/idl.go:Import.parse", "clawc/internal/idl/idl.go:File.Validate", "clawc/internal/idl/idl.go:Struct.Render", "clawc/internal/idl/options.go:Options.parse"]}
{"id": "C92", "title": "Parsing a schema ends with a schema or an error", "statement": "For every schema text the parser returns a file or an error; it does not panic and does not loop.", "quantifier": "every text (every sequence of lines of items from the lexer)", "why_tests_cant": "all texts, also malformed ones, of any length", "anchors": ["clawc/internal/idl/idl.go:File.FindNext", "clawc/internal/idl/idl.go:commentOrEOL", "clawc/internal/idl/idl.go:validateIdent", "clawc/internal/idl/idl.go:Struct.parseMapType", "clawc/internal/idl/options.go:Options.parseOptions"]}
{"id": "C93", "title": "Code can be generated for every accepted enum", "statement": "The values of an enum of an accepted schema are listed in the order of their numbers, each once. (Refuted: this panics if the numbers are not exactly 0, 1, ..., n-1; it is proved that it succeeds exactly then.)", "quantifier": "every accepted schema, every enum in it, every map iteration order", "why_tests_cant": "all sets of enum numbers", "anchors": ["clawc/internal/idl/idl.go:Enum.OrderByValues", "clawc/internal/idl/idl.go:Enum.parse", "docs/schema_language/schema_language.md"]}
{"id": "C94", "title": "A claw.mod is read as what it shows", "statement": "A claw.mod with a module line, at most one replace block and at most one line `acls = public`, in any order and with comments between, is read as exactly this path, these replacements in order and this access; and whatever is accepted was shown: the path by the first line, each replacement by a line of its own in the same order, openness by a line `acls = public`. Reading ends for every text. An accepted module without access list that is copied into the vendor directory is read there as the same. (Refuted: require blocks and acls blocks, as in the documentation, are refused; comments such as //text and comments among replacements are refused; the copy of a public module cannot be read.)", "quantifier": "every text (every sequence of lines of items from the lexer), every unicode classification that agrees with ASCII", "why_tests_cant": "all texts, also malformed ones, of any length", "anchors": ["clawc/internal/imports/module.go:Module.ParseModule", "clawc/internal/imports/module.go:Module.FindNext", "clawc/internal/imports/module.go:Module.ParseReplace", "clawc/internal/imports/module.go:Module.ParseACLs", "clawc/internal/imports/module.go:ValidModuleName", "clawc/internal/vendor/vendor.go:serializeModule"]}
{"id": "C95", "title": "Only admitted packages import", "statement": "A package may import another exactly if an entry of the other's access list admits it: everyone, the importer's path, or `p/*` for the packages under p; an empty list admits none; compilation goes on exactly if every package that has a claw.mod admits the root. (Refuted: `p/*` also admits every path that merely begins with the characters of p, such as p-evil; a package without a claw.mod is open to all.)", "quantifier": "every importer, every access list, every set of packages", "why_tests_cant": "all paths and lists; the absence of other admitted importers", "anchors": ["clawc/internal/vendor/vendor.go:checkACLPermission", "clawc/internal/vendor/vendor.go:validateACLs", "docs/modules/modules.md"]}
{"id": "C96", "title": "The workspace file that counts", "statement": "A claw.work with a repo line and a vendorDir line and comments is read as these, and whatever is accepted was shown by lines in this order, is not empty, has a relative vendor directory and no double slash in the repo; reading ends. The claw.work that is used is that of the nearest directory upwards that has one, and there is an error if none has. A module is taken to be in the repository exactly if its path is the repository's or is that before a slash. (Refuted: a last line that has no newline is not read.)", "quantifier": "every text, every chain of directories, all paths", "why_tests_cant": "all texts, directory chains and paths", "anchors": ["clawc/internal/work/work.go:Work.ParseRepo", "clawc/internal/work/work.go:Work.FindNext", "clawc/internal/work/work.go:Work.Validate", "clawc/internal/work/work.go:FindWork", "clawc/internal/work/work.go:ValidateModuleInRepo"]}
{"id": "C97", "title": "local.replace replaces imports", "statement": "The replacements of a local.replace are those that its lines show; each replaces an import of the schema and leads to a directory with a schema; reading ends. (Refuted: the compiler passes no schema, so any local.replace with an entry panics; it is proved that only one without entries is ever read. With a schema the entry must be the import's name and not its path, by which it is looked up.)", "quantifier": "every text, every schema, every state of the directories", "why_tests_cant": "all texts and schemas", "anchors": ["clawc/internal/imports/localreplace.go:LocalReplace.FindNext", "clawc/internal/imports/localreplace.go:LocalReplace.Validate", "clawc/internal/imports/imports.go:Config.Read", "clawc/internal/imports/imports.go:Config.readLocalReplace"]}
{"id": "C98", "title": "The dependency graph has exactly what is imported", "statement": "When the dependency graph of a schema is built, it has each package the schema imports, directly or not, exactly once, with the schema found for it (behind the replacements of local.replace, then claw.mod), and no other package, and no package imports itself. If finitely many packages are imported this ends, and it fails exactly if one of them cannot be found and read or there is a cycle.", "quantifier": "every set of packages, every import relation, every order of the imports, every state of the file system, git and the remote sources", "why_tests_cant": "all graphs, of any size", "anchors": ["clawc/internal/vendor/vendor.go:VendorManager.processClawFile", "clawc/internal/vendor/vendor.go:VendorManager.buildDependencyGraph", "clawc/internal/vendor/vendor.go:VendorManager.applyReplaceDirectives", "clawc/internal/vendor/vendor.go:VendorManager.getLocalClawFile"]}
{"id": "C99", "title": "The order of compilation", "statement": "The compilation order of a dependency graph has each package once, every package before all the packages it imports, whatever the order in which the nodes are visited; there is an order exactly if there is no cycle, and always for a graph that was built. (Refuted: what is imported comes first, as the comment in the code says.)", "quantifier": "every graph, every order of visiting its nodes", "why_tests_cant": "all graphs and all map orders", "anchors": ["clawc/internal/vendor/vendor.go:VendorManager.GetCompilationOrder"]}
{"id": "C100", "title": "Vendoring copies exactly the packages from outside", "statement": "When vendoring succeeds, the module is in the repository of claw.work, each imported package that is neither at a local path nor in the repository is in its place in the vendor directory exactly as it was fetched, no other file has changed, and each package at a local path that has a claw.mod admits the root.", "quantifier": "every set of packages, every state of the vendor directory before", "why_tests_cant": "all graphs, all file systems", "anchors": ["clawc/internal/vendor/vendor.go:VendorManager.VendorDependencies", "clawc/internal/vendor/vendor.go:VendorManager.createVendorStructure", "clawc/internal/vendor/vendor.go:VendorManager.vendorPackage", "clawc/internal/vendor/vendor.go:VendorManager.getModuleFile"]}
{"id": "C101", "title": "Reading a schema reads all that it imports", "statement": "When a schema is read, the result has each package that is imported, directly or not, with its schema, and the root under the path of its module, and nothing else; if finitely many are imported, reading ends and fails exactly if a schema cannot be read or there is a cycle.", "quantifier": "every import relation, every order of the imports", "why_tests_cant": "all graphs, of any size", "anchors": ["clawc/internal/imports/imports.go:Config.Read", "clawc/internal/imports/imports.go:Config.read", "clawc/internal/imports/imports.go:Config.readLocal", "clawc/internal/imports/imports.go:Config.readRemote"]}
{"id": "C102", "title": "Reading from the vendor directory reads the same", "statement": "Reading with vendored packages has the same result as reading without wherever both succeed; it has each imported package with its schema and nothing else, ends if finitely many are imported, and fails exactly if a schema cannot be read or the root is imported. (Refuted: it fails for every cycle.)", "quantifier": "every import relation, every order of the imports", "why_tests_cant": "all graphs, of any size", "anchors": ["clawc/internal/imports/imports.go:VendoredConfig.Read", "clawc/internal/imports/imports.go:VendoredConfig.readVendored", "clawc/internal/imports/imports.go:VendoredConfig.readLocal"]}
{"id": "C103", "title": "Types from other packages are found in the package imported under the name", "statement": "After reading, each type n.T a schema names has the schema of the package that the schema imports under the name n; this does not fail for accepted schemas and no type is left without a schema.", "quantifier": "every set of accepted schemas", "why_tests_cant": "all schemas and import graphs", "anchors": ["clawc/internal/imports/imports.go:Config.populateExternals", "clawc/internal/imports/imports.go:Config.populateIDLExternals"]}
{"id": "C104", "title": "Import paths of generated code", "statement": "A package in the repository keeps its path, another gets a path in the vendor directory of the repository; different packages get different paths. (Refuted: a package of another repository whose path begins with the characters of this one's is taken for one of this repository.)", "quantifier": "all paths", "why_tests_cant": "all pairs of paths", "anchors": ["clawc/internal/imports/imports.go:Config.TransformImportPath", "clawc/internal/vcs/vcs.go:Git.InRepo"]}
{"id": "C105", "title": "Writes reach the connection whole and in order", "statement": "Over a TCP or Unix socket transport, what is sent on each connection is the whole data of the Writes that returned nil, each once and in the order in which they returned, and after it at most a first part of the data of one Write that has not returned nil; also where Writes, Reads, Close and Reconnect overlap and connections fail.", "quantifier": "every interleaving of any number of calls, every splitting of the data by the connection, every failure", "why_tests_cant": "all schedules and all failures", "anchors": ["rpc/transport/tcp/client.go:ClientTransport.Write", "rpc/transport/tcp/server.go:ServerTransport.Write", "rpc/transport/unix/client.go:ClientTransport.Write", "rpc/transport/unix/server.go:ServerTransport.Write", "rpc/transport/tcp/client.go:ClientTransport.connect"]}
{"id": "C106", "title": "After Close a transport is silent", "statement": "Once a Close of a TCP or Unix socket transport has returned, no more bytes are sent on any connection, no Write and no Reconnect that was under way returns nil, every new Write, Read and Reconnect returns ErrClosed, and every new Close returns nil.", "quantifier": "every interleaving of any number of calls before and after Close", "why_tests_cant": "all schedules", "anchors": ["rpc/transport/tcp/client.go:ClientTransport.Close", "rpc/transport/tcp/server.go:ServerTransport.Close", "rpc/transport/tcp/client.go:ClientTransport.connect", "rpc/transport/unix/client.go:ClientTransport.Close", "rpc/transport/unix/server.go:ServerTransport.Close"]}
{"id": "C107", "title": "No connection is left open", "statement": "When a Close of a transport has returned and all calls have ended, every connection it dialed or was given is closed. (Proved for servers, and for clients on which no two calls connect at the same time; refuted for two calls of Reconnect at the same time.)", "quantifier": "every interleaving of any number of calls", "why_tests_cant": "all schedules", "anchors": ["rpc/transport/tcp/client.go:ClientTransport.cleanupLocked", "rpc/transport/tcp/client.go:ClientTransport.connect", "rpc/transport/tcp/client.go:ClientTransport.Reconnect", "rpc/transport/tcp/server.go:ServerTransport.Close"]}
{"id": "C108", "title": "The calls of a transport end", "statement": "The calls of a transport take only finitely many steps, and as long as one has not ended some step or event of its connection is possible: no set of calls blocks itself. (Proved for servers, and for clients until a write fails; refuted for a client whose Write fails while Close or Reconnect is under way, and refuted that Close ends without the peer where a Write is held up.)", "quantifier": "every interleaving of any number of calls, every behaviour of the connections", "why_tests_cant": "deadlocks depend on the schedule", "anchors": ["rpc/transport/tcp/client.go:ClientTransport.Write", "rpc/transport/tcp/client.go:ClientTransport.Close", "rpc/transport/tcp/client.go:ClientTransport.cleanupLocked", "rpc/transport/tcp/server.go:ServerTransport.Close", "rpc/transport/unix/client.go:ClientTransport.Write"]}
{"id": "C109", "title": "Accept hands out each connection once", "statement": "Accept of a TCP or Unix listener returns only connections that came in for this listener, no two calls get the same one, and it stays with that call. Once the listener's Close has returned nothing comes in any more, no connection is left waiting, later Accepts return ErrClosed, and only connections taken off the listener before are still handed out. An Accept can end when its listener is closed, its context is cancelled or a connection waits. No connection is lost: it waits, is on its way to a call, is with a call, or was refused by Close (proved while no context is cancelled; refuted after a cancelled Accept).", "quantifier": "every interleaving of any number of listeners, Accept, Close and Serve calls, incoming connections, cancellations and accept errors", "why_tests_cant": "all schedules; the lost connection needs a cancel between two others' steps", "anchors": ["rpc/transport/tcp/server.go:Listener.Accept", "rpc/transport/tcp/server.go:Listener.Close", "rpc/transport/unix/server.go:Listener.Accept", "rpc/transport/unix/server.go:Listener.Close"]}
{"id": "C110", "title": "A closed server serves no new connection", "statement": "When Serve of a TCP or Unix server returns its listener is closed, whatever it returns. Once the server's Close has returned, Serve hands no connection to the RPC server beyond the one it was already taking, every Serve called later only returns ErrClosed, and every Serve can end. (Proved for a server with one Serve; refuted with two.)", "quantifier": "every interleaving of any number of calls, incoming connections, cancellations and accept errors", "why_tests_cant": "all schedules", "anchors": ["rpc/transport/tcp/server.go:Server.Serve", "rpc/transport/tcp/server.go:Server.Close", "rpc/transport/unix/server.go:Server.Serve", "rpc/transport/unix/server.go:Server.Close"]}
{"id": "C111", "title": "The HTTP handler sends Writes whole and stops in time", "statement": "The HTTP handler serves a request exactly if it is a POST without a Content-Type or with the transport's and the answer can be flushed; any other gets 405, 415 or 500 for the first thing that is wrong. The body of the answer is made of the Writes, one after another, each at most once and never mixed: all bytes, flushed, of a Write that returned nil, the first bytes of one that failed or is in progress, none of one refused. Later bytes go behind earlier ones. Once the handler (or a Close) has returned, the ResponseWriter is not touched any more whoever still uses the transport, and Writes and Reads that had not begun get io.ErrClosedPipe. All Closes return the same. When Serve has returned the handler can return as soon as the Write in progress ends.", "quantifier": "every request; every interleaving of any number of Write, Read and Close calls with the handler, every way the ResponseWriter takes the bytes in pieces or fails", "why_tests_cant": "all schedules of concurrent Writes and the return of the handler", "anchors": ["rpc/transport/http/server.go:Handler.ServeHTTP", "rpc/transport/http/conn.go:serverTransport.Write", "rpc/transport/http/conn.go:serverTransport.Read", "rpc/transport/http/conn.go:serverTransport.Close"]}
{"id": "C112", "title": "The HTTP client sends Writes whole", "statement": "The bodies of the client's requests are made of the Writes: each Write is in one request only, with all its bytes if it returned nil, with its first bytes if it failed or goes on, and in none if it was refused; Writes are never mixed and what comes later goes behind. (Proved if connects do not overlap; refuted otherwise.)", "quantifier": "every interleaving of any number of Dial, Reconnect, Write, Read and Close calls, every way the HTTP client takes the body in pieces, answers or fails", "why_tests_cant": "all schedules of concurrent Writes and reconnects", "anchors": ["rpc/transport/http/client.go:ClientTransport.connect", "rpc/transport/http/client.go:ClientTransport.Write", "rpc/transport/http/client.go:ClientTransport.Read", "rpc/transport/http/client.go:ClientTransport.Close"]}
{"id": "C113", "title": "Closing the HTTP client ends everything", "statement": "Close returns at once. Once it has returned the transport is not connected, no byte goes into a request any more, a Write, Read or Reconnect that had not begun returns ErrClosed, and every call in progress ends without anything from the peer, after a bounded number of steps in any schedule. (That a connect in progress cannot return nil after Close is refuted.)", "quantifier": "every reachable state, every continuation", "why_tests_cant": "all schedules", "anchors": ["rpc/transport/http/client.go:ClientTransport.connect", "rpc/transport/http/client.go:ClientTransport.Write", "rpc/transport/http/client.go:ClientTransport.Read", "rpc/transport/http/client.go:ClientTransport.Close"]}
{"id": "C114", "title": "A connected HTTP client is usable", "statement": "Nothing panics; whenever the transport says it is connected the request that Writes feed has been answered with 200 and its answer is what Reads read; connect returns nil exactly if it has just connected. (Proved if connects overlap neither with each other nor with Close; refuted otherwise.)", "quantifier": "every interleaving of any number of calls, answers, failures and ends of contexts", "why_tests_cant": "all schedules", "anchors": ["rpc/transport/http/client.go:ClientTransport.connect", "rpc/transport/http/client.go:ClientTransport.Write", "rpc/transport/http/client.go:ClientTransport.Read", "rpc/transport/http/client.go:ClientTransport.Close"]}
{"id": "C115", "title": "Reflection shows what the message holds", "statement": "Has tells whether a declared field is set; Get gives nil for a field that is not set, and otherwise a Value with the value the message has there: numbers, bools, enums with their group, strings, bytes, structs and lists. (Proved for all of these but lists of bools, strings and bytes and imported 16-bit enums; refuted for lists: bools come with padding, strings and bytes come empty, and Get panics for Any and map fields.)", "quantifier": "every message, descriptor, registry of packages and declared field", "why_tests_cant": "all values of all field types in all messages", "anchors": ["languages/go/reflect/internal/value/impl.go:StructImpl.Get", "languages/go/reflect/internal/value/impl.go:StructImpl.Set", "languages/go/reflect/internal/value/impl.go:StructImpl.Fields", "languages/go/reflect/internal/value/value.go:Value.Any"]}
{"id": "C116", "title": "Reading by reflection changes nothing", "statement": "Get leaves the message, its bytes and what the accessors show as they were. (Message and bytes: proved for all fields. Accessors: proved for all but lists of numbers, strings and bytes; Get of a list of numbers puts a new list object with the message's items in the place of the accessor's; refuted for strings and bytes, which the accessor shows empty afterwards.)", "quantifier": "every message, list objects in use, field", "why_tests_cant": "all states of the list cache", "anchors": ["languages/go/reflect/internal/value/impl.go:StructImpl.Get", "languages/go/reflect/internal/value/impl.go:StructImpl.Set", "languages/go/reflect/internal/value/impl.go:StructImpl.Fields", "languages/go/reflect/internal/value/value.go:Value.Any"]}
{"id": "C117", "title": "Set and Clear by reflection", "statement": "Set of a value of the field's type stores it, so that Get gives it back (nil for a zero value), and leaves the other fields; Clear unsets the field. (Proved except for the empty string, nil bytes and lists, for which Set panics, and for Clear of lists, maps and Any, which does nothing. An enum value that its group does not name cannot be set.)", "quantifier": "every message, field and value", "why_tests_cant": "all values of all field types in all messages", "anchors": ["languages/go/reflect/internal/value/impl.go:StructImpl.Get", "languages/go/reflect/internal/value/impl.go:StructImpl.Set", "languages/go/reflect/internal/value/impl.go:StructImpl.Fields", "languages/go/reflect/internal/value/value.go:Value.Any"]}
{"id": "C118", "title": "Fields goes through the declared fields in order", "statement": "Fields gives the caller the declared fields in order, each once, with what Get gives, and stops as soon as the caller wants no more. (Proved for messages that Get shows rightly; with an Any or a map set it panics. String of a struct with a field that is not set panics.)", "quantifier": "every message, descriptor and caller", "why_tests_cant": "all messages and callers", "anchors": ["languages/go/reflect/internal/value/impl.go:StructImpl.Get", "languages/go/reflect/internal/value/impl.go:StructImpl.Set", "languages/go/reflect/internal/value/impl.go:StructImpl.Fields", "languages/go/reflect/internal/value/value.go:Value.Any"]}
{"id": "C119", "title": "A sync session answers its requests in order", "statement": "On the server, the handler of a sync method is called with the requests of a session in the order in which they came in, each once; the client gets the answers in that order, each once, under the id of its request, and then one Close. The Close says success only if every request was answered; a failed request is reported as a failure; the other requests get their answers; the session ends when its context does. (Order, answers and Close: proved. Refuted: an error of category Unknown, or of any multiple of 65536, closes the session as a success; requests after a failed one are dropped; a session whose deadline has passed waits for the client for ever.)", "quantifier": "every sequence of requests, results of the handler, failures of the transport and interleaving with the connection", "why_tests_cant": "all schedules of requests, cancellation and the end of the connection", "anchors": ["rpc/server/conn.go:runHandler", "rpc/server/conn.go:runSyncHandler", "rpc/server/conn.go:sendPayload", "rpc/server/handlers.go:BiDirStream.Recv", "rpc/server/handlers.go:BiDirStream.Send", "rpc/server/handlers.go:SetTrailer", "rpc/server/handlers.go:errCodeFromError"]}
{"id": "C120", "title": "A stream handler gets and sends in order, then comes the status", "statement": "A handler's Recv yields the payloads that came in, in order and each once, until EndStream, the end of the session or of the context, and not fewer than had come in by then; a Send that returns nil has sent its data once, one that fails has not, and data sent one after the other goes out in that order; after the handler's return come the EndStream and one Close with the status and the trailer, for each key the last value set; after it nothing is sent in the session. (Proved, the last part for handlers with no Send under way when they return; refuted for the others. Refuted too: that a handler can tell the end of the client's stream from a cancelled one.)", "quantifier": "every handler, number of goroutines that send, client and schedule", "why_tests_cant": "all interleavings of the handler, its goroutines, the connection and the client", "anchors": ["rpc/server/conn.go:runHandler", "rpc/server/conn.go:runSyncHandler", "rpc/server/conn.go:sendPayload", "rpc/server/handlers.go:BiDirStream.Recv", "rpc/server/handlers.go:BiDirStream.Send", "rpc/server/handlers.go:SetTrailer", "rpc/server/handlers.go:errCodeFromError"]}
{"id": "C121", "title": "A sync call, from end to end", "statement": "With any number of concurrent calls on one sync session: a call that returns a value returns what the server's handler returned for that call's argument; the handler runs at most once for a call, with requests in the order in which they were sent; and if no message is lost, no call waits for ever for an answer that another call took from the channel. (Proved for fewer than 2^32 calls in a session.)", "quantifier": "every number of calls, handler, loss of messages and interleaving of client, server and connection", "why_tests_cant": "all interleavings of concurrent calls with the server and the connection", "anchors": ["rpc/client/sync.go:doCall", "rpc/server/conn.go:runSyncHandler", "rpc/client/conn.go:handlePayload", "rpc/server/conn.go:handlePayload"]}
{"id": "C122", "title": "What a client stream yields is what the handler sent", "statement": "At every moment the loop over a client's stream has yielded the first of the values that the handler has sent, each once and in the order in which they went out; a loop that has ended by itself (neither stopped nor cancelled, connection alive) has yielded all that the handler sent before it returned; an error it reports is the one the handler returned; and it reports the handler's error. (The last part is false: the loop ends with the EndStream that precedes the Close and does not wait for the Close.)", "quantifier": "every handler, sequence and interleaving of Sends, connection that keeps the order, point in time", "why_tests_cant": "all interleavings of handler, server, connection, client and loop", "anchors": ["rpc/client/client.go:recvIter", "rpc/client/client.go:checkClose", "rpc/server/handlers.go:SendStream.Send", "rpc/server/conn.go:runHandler", "rpc/client/conn.go:handlePayload"]}
{"id": "C123", "title": "Keepalive tells dead connections from living ones", "statement": "A client connection on which nothing is read any more is closed after at most two ping intervals and the ping timeout (proved where the transport takes the ping; false where it blocks); a connection that the keepalive closed is one on which a ping was sent and no pong read for the whole timeout; a connection whose peer answers every ping in less than the timeout is not closed by the keepalive (proved while no session holds up the read loop; false otherwise); every ping interval can be used (false for 0, which panics).", "quantifier": "every interval, timeout, channel capacity, peer, transport, behaviour of the session's user and interleaving, in discrete time", "why_tests_cant": "all timings of messages, ticks, writes and readers", "anchors": ["rpc/client/client.go:pingLoop", "rpc/client/client.go:handlePong", "rpc/client/client.go:handlePayload", "rpc/client/client.go:markActivity", "rpc/client/client.go:WithPingInterval"]}
{"id": "C124", "title": "What a client stream's calls send", "statement": "On a client stream, a Send that returned nil has sent its data exactly once and any other Send has sent nothing, nothing longer than the send limit goes out; a Send that begins after another one returned goes out after it; at most one end of stream and at most one Close go out, however often and from however many goroutines CloseSend and Close are called, and a SendClient's end of stream never after its Close; a Send that begins after CloseSend or Close has returned fails and sends nothing.", "quantifier": "every kind of stream, limit, set of concurrent calls, interleaving of their steps, failure of the transport, context, cancellation", "why_tests_cant": "all interleavings of calls from several goroutines", "anchors": ["rpc/client/bidir.go:Send", "rpc/client/bidir.go:CloseSend", "rpc/client/bidir.go:Cancel", "rpc/client/bidir.go:Close", "rpc/client/send.go:Send", "rpc/client/send.go:Close", "rpc/client/recv.go:Close", "rpc/client/client.go:sendPayload"]}
{"id": "C125", "title": "A handler gets what the client sent, from end to end", "statement": "At all times the values a stream handler was given are the first ones that the client's Sends sent, in order, each once (without those longer than the server's receive limit, which are dropped silently); a loop over Recv that ends because of the end of stream or because the client closed or cancelled the session was given everything that was sent before the client called CloseSend, Close or Cancel. A Send that a concurrent CloseSend overtakes returns nil although the loop never yields its value (refuted full statement).", "quantifier": "every run of the client's stream and of the server's session, any cut of the connection in between", "why_tests_cant": "all interleavings of two programs and the network", "anchors": ["rpc/client/bidir.go:Send", "rpc/client/bidir.go:CloseSend", "rpc/client/bidir.go:Cancel", "rpc/client/bidir.go:Close", "rpc/client/send.go:Send", "rpc/client/send.go:Close", "rpc/client/recv.go:Close", "rpc/client/client.go:sendPayload", "rpc/server/conn.go:handlePayload", "rpc/server/handlers.go:Recv"]}
{"id": "C126", "title": "A list of structs behaves like a list, and Marshal writes it", "statement": "A list of structs of a new struct shows after any sequence of Append, Set, SetAll, changes of its items and Marshal what a plain list would, and a call with an index out of range panics; the same of an unmarshalled struct up to its first Marshal as long as only the list is edited. The first Marshal writes the list as shown. What the first Marshal wrote is what every later one writes, whatever is done with the list in between, so that Marshal does not always write what the accessor shows (refuted full statement).", "quantifier": "every type of item, every initial list, every sequence of calls", "why_tests_cant": "all sequences of calls of every length on every list", "anchors": ["segment/lists.go:NewStructs", "segment/lists.go:Structs.Append", "segment/lists.go:Structs.Set", "segment/lists.go:Structs.SetAll", "segment/lists.go:Structs.SyncToSegment", "segment/getters.go:GetListStructs"]}
{"id": "C127", "title": "Diff, Apply and recording of lists of structs", "statement": "Diff between two structs and Apply on a struct made in memory that shows the first one's list gives the second one's list, for the accessor and on the wire; so does the replay of a recording of Append, Set and SetAll of some items. On a struct that was unmarshalled with the list l, an insert gives l followed by l with the insertion, a remove l followed by l without the item, a replace l followed by the new items; only a set gives the list it should (so the law is false there and for structs that were marshalled once). A patch of an item with a negative index panics. Recordings of SetAll with no items and of changes of items do not replay (refuted).", "quantifier": "every pair of lists whose items can be written, read, diffed and patched, every history of the base in memory, every list in an unmarshalled base", "why_tests_cant": "all pairs of lists, all histories of edits", "anchors": ["segment/lists.go:NewStructs", "languages/go/patch/diff.go:diffListStructs", "languages/go/patch/diff.go:createListReplaceStructs", "languages/go/patch/apply.go:applyListReplaceStructs", "languages/go/patch/apply.go:applyListStructPatch"]}
{"id": "C128", "title": "Patches of maps and of Any fields", "statement": "Diff fails for every two structs of a type that has a map, an Any or a list of Any, equal or not. Every Set and Delete of a map is recorded, but the replay of such a recording succeeds and changes nothing, whatever the base, so a replay does not give the recorded map (refuted).", "quantifier": "every type, every pair of structs, every sequence of map changes, every base", "why_tests_cant": "all structs and all sequences of changes", "anchors": ["languages/go/patch/diff.go:diffField", "languages/go/patch/apply.go:applyOpWithDepth", "clawc/languages/go/segment/maps.go:Set", "clawc/languages/go/segment/maps.go:Delete"]}
{"id": "C129", "title": "The limit of concurrent handlers", "statement": "With WithMaxConcurrentRPCs(n), n > 0, at most n handlers run at a time on one connection and a waiting one starts as soon as fewer run; the server as a whole runs up to n per connection (a limit of n for the server is refuted). While an Open waits for a place nothing the client sends reaches any session of the connection, so that for every n handlers that read their streams to the end can come to a standstill although the end of a stream was sent (that it can still be delivered is refuted). Without a limit the next message is read within two steps.", "quantifier": "every limit, number of connections, sequence of messages, schedule of the read loop and the handlers", "why_tests_cant": "all interleavings; a standstill is a property of all continuations", "anchors": ["rpc/server/server.go:WithMaxConcurrentRPCs", "rpc/server/conn.go:newServerConn", "rpc/server/conn.go:handleOpen", "rpc/server/conn.go:serve"]}
{"id": "C130", "title": "Telemetry leaves calls as they are and counts them", "statement": "Behind the telemetry interceptors every call reaches its handler once, with its request or stream, and the caller gets the result, an error exactly if there was one, with the handler's error in its chain, and the handler's panic. With tracing there is exactly one span around the call, which is ended also by a panic; with metrics each call that returns is counted and timed once under its status, so that over any history the counters are the numbers of calls; request and response sizes are recorded. The error code that the client gets is the one it would get without the interceptor (refuted: the category is lost).", "quantifier": "every configuration, handler, request and history of calls", "why_tests_cant": "all handlers and histories", "anchors": ["rpc/interceptor/otel/otel.go:New", "rpc/interceptor/otel/otel.go:UnaryServerInterceptor", "rpc/interceptor/otel/otel.go:StreamServerInterceptor", "rpc/interceptor/otel/otel.go:UnaryClientInterceptor", "rpc/interceptor/otel/otel.go:StreamClientInterceptor", "rpc/server/handlers.go:errCodeFromError"]}
{"id": "C131", "title": "Trace rules", "statement": "Rules that compile match exactly the requests from an address in one of their ranges, of a method named in full or by its last parts, or with metadata that is asked for; rules with an invalid range are refused. A request that matches is traced (refuted: nothing asks the rules, and with them the interceptors do what they do without).", "quantifier": "every set of rules, address, method and metadata", "why_tests_cant": "all requests and rules", "anchors": ["rpc/interceptor/otel/config.go:ShouldTrace", "rpc/interceptor/otel/config.go:compile", "rpc/interceptor/otel/otel.go:New"]}
{"id": "C132", "title": "A target is dialled at the addresses and the port that it names", "statement": "A dns target with a name and a port resolves to the addresses of the name in the order of the answer, each with the port; without a port 443 is meant; an address literal is taken as it is. Whatever the endpoint, a result is not empty and each address can be split into a host and the port. The dialer of a dns target dials these addresses equally often, that of a text without a scheme dials the text, an unknown scheme is refused. Refuted: an IPv6 literal in brackets without a port, and an endpoint with a colon but no port, get the default port.", "quantifier": "every endpoint, every answer of the name server, every number of dials", "why_tests_cant": "all endpoints and answers", "anchors": ["rpc/transport/resolver/dns/dns.go:Resolve", "rpc/transport/resolver/dns/dns.go:Build", "rpc/transport/transport.go:NewResolvingDialer", "rpc/transport/transport.go:Dial", "rpc/transport/resolver/passthrough/passthrough.go:Resolve"]}
{"id": "C133", "title": "What a call carries to its handler and what its opening tells the caller", "statement": "A call for which a handler of its kind is registered reaches that handler, on a server that is not draining, and no other call does. The handler's deadline is the caller's, moved by the transit and at most a millisecond short (refuted for calls with less than a millisecond left: none at all). The interceptors and the functions of request-response methods get exactly the headers of the call: those of the credentials, then those given with the call or else those of the context (refuted for the functions of streams: they get none). The caller has a session exactly if the server has one (refuted for the 2^32-th), and is told why a call was turned down (refuted: always the same error).", "quantifier": "every call, registry, metadata, instant and number of earlier calls", "why_tests_cant": "all deadlines, headers and histories", "anchors": ["rpc/client/client.go:openSession", "rpc/client/client.go:handleOpenAck", "rpc/client/client.go:applyCredentials", "rpc/server/conn.go:handleOpen", "rpc/server/conn.go:sendOpenAck", "rpc/server/conn.go:runSyncHandler"]}
{"id": "C134", "title": "Rendering gives every package in every language, or the error of one of them", "statement": "Render returns one result for each language and package, with what the renderer made of it and cleaned, if no package fails; an error if one fails; the error is that of a package that fails by itself, never of one that was stopped because another had failed. An unsupported language is an error before anything is rendered. Every run ends.", "quantifier": "every list of languages and packages, every behaviour of the renderers and every schedule of the goroutines", "why_tests_cant": "all schedules", "anchors": ["clawc/internal/render/render.go:Render"]}
{"id": "C135", "title": "Cleaning drops the imports of unused helpers and nothing else", "statement": "The cleaned text has the lines of the text in order, without those that import a helper package whose use does not occur in it; the import of a helper that is used stays; what is left imports only helpers whose use occurs; cleaning twice is cleaning once. Refuted: an import that is only mentioned in a comment stays.", "quantifier": "every text", "why_tests_cant": "all texts", "anchors": ["clawc/internal/render/render.go:cleanImports"]}
{"id": "C136", "title": "The files of the packages are written, or there is an error", "statement": "If WriteFiles returns no error, then every file of every package that is to be written has its content (refuted for packages named like one of their other files); files of no such package are left alone; if a file cannot be written there is an error; if a package of another repository cannot be fetched there is an error and nothing is written; otherwise there is none.", "quantifier": "every list of packages, file system, failure of a write or fetch, and schedule of the goroutines", "why_tests_cant": "all schedules and failures", "anchors": ["clawc/internal/writer/golang/golang.go:WriteFiles", "clawc/internal/writer/golang/golang.go:getImports", "clawc/internal/render/golang/golang.go:RenderAdditionalFiles"]}
{"id": "C137", "title": "A package is fetched at the commit that is asked for", "statement": "GetClawFile with the full name of a commit, or with none for the head, returns a file exactly where the directory of the package at that commit holds exactly one .claw file, directly or behind at most four global.replace redirects, and then its text, the full name of the commit and the text's SHA-256; the version returned for the latest file gives that same file again; five redirects are an error; every call ends. Refuted: a version tag is found, the version v and a path of fewer than three parts give an error, a short commit name works, the latest version of a package that moved is found.", "quantifier": "every set of repositories, package path, commit and chain of redirects", "why_tests_cant": "all repositories, paths and chains", "anchors": ["clawc/internal/imports/git/git.go:GetClawFile", "clawc/internal/imports/git/git.go:cloneRepo", "clawc/internal/imports/git/git.go:versionCheckout", "clawc/internal/imports/git/git.go:Version.FromString", "clawc/internal/imports/globalreplace/globalreplace.go"]}
{"id": "C138", "title": "clawc knows the git and the repository it runs in", "statement": "The version is read from what git prints whatever stands around it; a git that is accepted is of version 2.18 or later, and every 2.x from 2.18 is accepted (refuted for 3.0); the root of the repository is found if its path has no .git in it (otherwise the program breaks); the path of a package inside the repository is what follows the repository's name, if that name comes only once (refuted otherwise).", "quantifier": "every output of git, every path and package", "why_tests_cant": "all outputs and paths", "anchors": ["clawc/internal/vcs/vcs.go:NewGit", "clawc/internal/vcs/vcs.go:Root", "clawc/internal/vcs/vcs.go:Abs", "clawc/internal/vcs/vcs.go:meetsMin"]}
{"id": "C139", "title": "What init writes is read back", "statement": "clawc init writes a claw.mod that is read as the module of that directory, lying in the repository of the workspace, and, where there is no workspace, a claw.work that is read as the workspace of the repository; it writes nothing where there is a claw.mod or neither a workspace nor a repository. Refuted: for a repository or directory whose name is no package name, the claw.mod is refused.", "quantifier": "every repository and directory", "why_tests_cant": "all paths", "anchors": ["clawc/clawc.go:handleInit", "clawc/clawc.go:writeWorkFile", "clawc/clawc.go:writeModFile"]}
{"id": "C140", "title": "get fetches the package and version it is asked for", "statement": "package@version, with any white space around the two, is that package and that version; without a version, or with nothing behind the at sign, there is none; what is accepted has a package and what is refused has none; without a version or for latest get fetches the latest file, otherwise what that version gives.", "quantifier": "every argument and set of repositories", "why_tests_cant": "all texts", "anchors": ["clawc/clawc.go:parsePackageSpec", "clawc/clawc.go:handleGet", "clawc/internal/imports/git/git.go:GetLatestVersion"]}
{"id": "C141", "title": "Every table of fields is prepared once before it is used", "statement": "Init of a table of fields ends however the tables refer to each other, prepares exactly the tables reached from it, each exactly once, and leaves those prepared before alone; when the init functions of all packages have run, in any order, everything reachable from any of their Structs has been prepared exactly once and nothing else.", "quantifier": "every set of tables with any references between them, every state in which what was prepared is closed, every order of packages", "why_tests_cant": "the graph of Structs is arbitrary, with cycles through fields, lists and maps", "anchors": ["clawc/languages/go/mapping/mapping.go:Map.Init", "clawc/internal/render/golang/templates/mappings.tmpl", "clawc/languages/go/segment/segment.go:init"]}
{"id": "C142", "title": "Validate accepts the tables that make sense and reports the others", "statement": "Validate of a table returns without an error exactly where every field below it says what Struct or map it holds and no Struct holds itself, and reports an error where something is missing; MustValidate panics exactly then; ByName gives the first field of the name and panics if there is none. Refuted: Validate never returns for Structs that hold themselves, and refuses the form that the documentation gives for them.", "quantifier": "every set of tables, every table in it, every name", "why_tests_cant": "depth and shape of the Structs are unbounded", "anchors": ["clawc/languages/go/mapping/mapping.go:FieldDescr.Validate", "clawc/languages/go/mapping/mapping.go:Map.MustValidate", "clawc/languages/go/mapping/mapping.go:Map.ByName"]}
{"id": "C143", "title": "The generated package of an accepted schema can be initialized", "statement": "For every schema that clawc accepts, no variable of the generated package depends on itself, so that the Go compiler takes it. Proved: exactly the schemas in which no struct holds itself have this, among them all in which every struct uses only structs above it. Refuted: clawc accepts structs with a field of their own type and structs that use each other, and generates code that does not compile.", "quantifier": "every text of a schema that is accepted, every set of external files", "why_tests_cant": "there are infinitely many schemas, and the dependency can go through any number of structs", "anchors": ["clawc/internal/render/golang/templates/mappings.tmpl", "clawc/internal/idl/idl.go:Struct.field", "clawc/internal/idl/idl.go:Struct.Render"]}
{"id": "C144", "title": "The generated Go code declares every name once", "statement": "For every schema that clawc accepts, the generated package declares no name twice at its top level and no method of a struct twice, so that the Go compiler takes it. Proved: this holds when the structs, the enums and the values of all enums have different names and no name looks like one that is made from another (New..., XXX..., ...ByName, ...ByValue, ...Raw; for fields Set..., ...Len, ...Get and so on), and different names are necessary. Refuted: clawc accepts two enums with a value Unknown each, a value named like a struct, structs Car and NewCar or CarRaw, fields Name and SetName, and a field Marshal.", "quantifier": "every text of a schema that is accepted, with and without the option IsSet, any number of structs, enums, values and fields", "why_tests_cant": "there are infinitely many schemas, and the clash is between any two names of one", "anchors": ["clawc/internal/idl/struct.tmpl", "clawc/internal/render/golang/templates/enums.tmpl", "clawc/internal/render/golang/templates/mappings.tmpl", "clawc/internal/render/golang/templates/reflect.tmpl", "clawc/internal/render/golang/templates/claw.tmpl"]}
{"id": "C145", "title": "The lists of Go reflection hold what is set and appended", "statement": "A List of Go reflection behaves as a list: Len and Get show its elements and Get panics outside, Set stores a value of the type of the elements and panics for others, Append makes the list one longer, Type is the type of the list. Proved for every program: Len, Get and Set are those of cells of a fixed number that copies share; lists of bools, numbers and bytes take exactly the values of their type. Refuted: Append never changes any list, lists of strings and structs take other values, Type of a list of numbers is that of a number.", "quantifier": "every program of any length that gets, copies, sets and appends to lists, every index and value, however much room append leaves", "why_tests_cant": "programs, indices and the capacities of slices are unbounded", "anchors": ["languages/go/reflect/internal/value/impl.go:ListBools", "languages/go/reflect/internal/value/impl.go:ListNumbers", "languages/go/reflect/internal/value/impl.go:ListStructs", "languages/go/reflect/internal/interfaces/interfaces.go:List"]}
{"id": "C146", "title": "NewField gives a new value that is assignable to the field", "statement": "NewField of Go reflection returns, for every field, an empty value of its type that Set accepts. Proved for all bools, numbers, enums, strings, bytes and lists of them that the value is empty and of the type, and that bools and numbers can be set. Refuted: for a struct field it is a struct of the enclosing type; for lists of structs of generated code, maps and Any it panics; no list can be set.", "quantifier": "every descriptor of a field, every struct and message", "why_tests_cant": "the types of structs are unbounded", "anchors": ["languages/go/reflect/internal/value/impl.go:StructImpl.NewField", "languages/go/reflect/internal/value/impl.go:SetField", "languages/go/reflect/internal/interfaces/interfaces.go:Struct"]}
{"id": "C147", "title": "Closing a client connection ends everything on it", "statement": "After Close of a client connection: it stays closed, no call that begins then gets a session, the calls that wait for one return, the user of every open session is told (the session is cancelled or its channel closed), and the read loop ends and closes the channels of all sessions. Proved for every execution in which the server gives no session id twice. Refuted: with an id given twice the first session is never told; and when the context of the connection ends, its loops stop but it is not closed, so that new calls are taken and left waiting.", "quantifier": "every execution of a connection, any number of calls and sessions, any messages of the server, Close at any point", "why_tests_cant": "the interleavings of callers, read loop and Close are unbounded", "anchors": ["rpc/client/client.go:Conn.Close", "rpc/client/client.go:Conn.openSession", "rpc/client/client.go:Conn.readLoop", "rpc/client/client.go:Conn.handleOpenAck"]}
{"id": "C148", "title": "Closing a server connection ends the handlers it runs", "statement": "After Close of a server connection it stays closed; every handler of a session opened before Close that has not returned is told from then on (its session is cancelled, or its requests are at an end); the read loop can end within four steps however full the queues of the handlers are; and once the read loop has ended, for whatever reason, every handler that has not returned finds its requests at an end. Refuted: that every handler is cancelled. A session whose Open message is being handled while Close runs is created afterwards, its handler is started on the closed connection, and it is never cancelled.", "quantifier": "every execution of a connection with fewer than 2^32 sessions, any number of handlers, any messages of the client, Close at any point", "why_tests_cant": "the interleavings of the read loop, the handlers and Close are unbounded", "anchors": ["rpc/server/conn.go:ServerConn.Close", "rpc/server/conn.go:ServerConn.serve", "rpc/server/conn.go:ServerConn.handleOpen", "rpc/server/conn.go:ServerConn.runHandler"]}
{"id": "C149", "title": "Integers in little endian bytes", "statement": "In the internal binary package, the functions per type put an integer of any of the eight sizes and signs as little endian two's complement into the first bytes of a slice, change no other byte, read it back, and panic on slices that are too short; the functions on writers and readers give back the same integer and leave the reader behind it, or an error when too little is left. The generic Get and GetBuffer are the same functions. Refuted: the generic Put for int8, int16 and int32 writes eight bytes, and panics when there are fewer; the generic PutBuffer panics for every type but int64.", "quantifier": "every integer of each type, every slice, every rest of the reader", "why_tests_cant": "the values and slices are too many to try", "anchors": ["clawc/internal/binary/binary.go:Get", "clawc/internal/binary/binary.go:Put", "clawc/internal/binary/binary.go:PutBuffer", "clawc/internal/binary/binary.go:GetInt16"]}
{"id": "C150", "title": "Bit ranges and single bits of unsigned integers", "statement": "In the internal bits package, Mask has exactly the bits of its range; a value that fits, stored by SetValue in a clear range, is read back by GetValue and changes no bit outside; ClearBits clears exactly its range, so that clearing first makes the store and the read exact whatever was there; SetBit, ClearBit and GetBit agree, and positions outside of the type panic (for uint8 to uint64) or do nothing (other unsigned types); ClearBytes clears exactly its bytes. Refuted: SetValue alone replaces a value, and keeps to its range when the value is too large.", "quantifier": "every width up to 64, every range, every stored and new value", "why_tests_cant": "all values and ranges", "anchors": ["clawc/internal/bits/bits.go:SetValue", "clawc/internal/bits/bits.go:GetValue", "clawc/internal/bits/bits.go:Mask", "clawc/internal/bits/bits.go:ClearBits", "clawc/internal/bits/bits.go:SetBit"]}
{"id": "C151", "title": "Structs from the pool are as good as new", "statement": "In every program of New, legal calls, MarshalSafe and Release, on any number of structs of one type in any order and with any choice the pool makes, nothing panics; every struct not yet released is what its own calls since New make of a fresh struct, whatever its memory held before; no two of them share memory; the slices from MarshalSafe keep their bytes when the memory is used again; and no other memory changes. Release clears the start of the slice that Marshal returned, or that was given to Unmarshal, so that it cannot be unmarshalled any more. Refuted: a parent keeps its fields after Release of a struct from its getter; a second Release of one struct is harmless.", "quantifier": "every program of such calls, every choice of the pool, every initial memory", "why_tests_cant": "which memory the pool hands out, and what is left in it, depends on the whole history", "anchors": ["clawc/languages/go/segment/struct.go:New", "clawc/languages/go/segment/struct.go:Release", "clawc/languages/go/segment/struct.go:Unmarshal", "clawc/languages/go/segment/struct.go:MarshalSafe", "clawc/languages/go/segment/segment.go:Reset", "clawc/languages/go/segment/segment.go:SegmentPools"]}
{"id": "C152", "title": "A struct from Unmarshal lives on the slice it was given", "statement": "Unmarshal of a slice that starts with a marshalled message gives a struct that stands for the message, without a copy; later calls on the struct do what they do on any struct that stands for it, and change no byte of memory but those from the start of the slice up to its capacity. So two structs on two slices of one buffer, each with its own capacity, do not disturb each other. Refuted: the same when the first slice has the capacity to the end of the buffer (buf[:n]), a call on the first struct writes over the second message.", "quantifier": "every memory, every slice that starts with a marshalled message, every later program of legal calls on the struct, every other slice", "why_tests_cant": "whether memory is shared depends on capacities and on the growth of the struct", "anchors": ["clawc/languages/go/segment/struct.go:Unmarshal", "clawc/languages/go/segment/segment.go:EnsureCapacity", "clawc/languages/go/segment/segment.go:InsertAt"]}
{"id": "C153", "title": "clawc get vendors a package and all it imports", "statement": "After clawc get of a package at a version, that package at that version, and every package it imports, directly or not, at the version the root requires, is in its place in the vendor directory with the content that was found, packages of the own repository too; no other file has changed; none of these packages imports itself, directly or not; and each that has an access list admits the root. If finitely many packages are imported the command ends, and succeeds exactly if all are found, none imports itself and all access lists admit the root. Refuted: the same outside of a git repository, where the command panics for each package that no replacement makes a local path.", "quantifier": "every package, version, module file, file system, set of fetched packages, import graph", "why_tests_cant": "the import graph can have any size and shape", "anchors": ["clawc/internal/vendor/vendor.go:VendorSingleDependency", "clawc/internal/vendor/vendor.go:processSingleDependency"]}
{"id": "C154", "title": "clawc generates code for every package that the schema imports", "statement": "When clawc succeeds on a schema, code was generated without an error for each package the schema imports, directly or not, exactly once, from the only schema in its directory (in the workspace for packages of the workspace, in the vendor directory for the others), and at last for the schema itself; and a package from outside is compiled from the content that was fetched. It succeeds whenever the dependencies can be vendored and each of these files is there and compiles. Refuted: a package outside of the workspace that a replacement makes a local path, or that is in the git repository, is found and read but not vendored, and then looked for in the vendor directory: the compilation fails, or takes a copy that was left there.", "quantifier": "every import graph, module file, replacements, file system, set of fetched packages, order of map iteration, outcome per file", "why_tests_cant": "the import graph can have any size and shape, and the order is that of a map", "anchors": ["clawc/clawc.go:handleCompile", "clawc/clawc.go:compileLocalDependency", "clawc/clawc.go:compileDependency", "clawc/clawc.go:findClawFileInDir"]}
{"id": "C155", "title": "The descriptors of a generated package are found by name and by number", "statement": "For an accepted schema, the package descriptor finds each declared struct and enum by its name and nothing else; by number structs come in the order of their names, each once; a field of a struct is found by its number and, where the names of the fields differ, by its name; an enum has as many values and bits as declared, and each value is found by its name and by its number, which is its place. Numbers out of range panic. Refuted: by name for every accepted field name (the first byte of the name is taken for a letter, so a name whose first letter has several bytes can panic); and that a lookup among enums gives nil where there is none, for packages without enums.", "quantifier": "every schema text the compiler accepts, every name and number looked up", "why_tests_cant": "ranges over all schemas and all names", "anchors": ["languages/go/reflect/internal/value/impl.go:StructDescrImpl", "languages/go/reflect/internal/value/impl.go:StructDescrsImpl", "languages/go/reflect/enums/enums.go:EnumGroupImpl", "clawc/internal/render/golang/templates/reflect.tmpl"]}
{"id": "C156", "title": "The Go types of the generated code are those of the schema", "statement": "For every schema text, each field has in the generated Raw struct the Go type for the type it is written with: the built-in types, enums and Structs of this package and of others, lists, and maps of any depth; there is such a type for every field of an accepted schema. Lists of numbers are generated for the number type or enum written; map methods for the key and the plain value type; a field of a Struct type names the table of that Struct in its package. Refuted: the values of a map of maps have one type in the Raw struct and in the map (false unless what is inside is plain, so that the generated file does not compile); and that a map of Structs of another package names their table.", "quantifier": "every schema text, every Struct and field in it, every nesting of map types", "why_tests_cant": "ranges over all schemas and nesting depths", "anchors": ["clawc/internal/idl/idl.go:StructField.RawGoType", "clawc/internal/idl/idl.go:StructField.MapRawValueGoType", "clawc/internal/idl/idl.go:StructField.MapValueGoType", "clawc/internal/idl/idl.go:StructField.GoListType", "clawc/internal/idl/struct.tmpl", "clawc/internal/render/golang/templates/mappings.tmpl"]}
{"id": "C157", "title": "The generated methods of a Struct have different names and belong to it", "statement": "For every accepted schema: every field of a Struct gets methods to read and to write it (and IsSet with that option); if the names of the fields differ and none of them is, begins or ends like the name of a generated method, no two methods of the Struct have the same name; and all are methods of the Struct if the schema is without the option IsSet or the Struct without int8 fields. Refuted without these conditions: the compiler accepts fields Name and SetName, or a field Marshal, and writes a method twice; and it writes IsSet of an int8 field for a type that does not exist.", "quantifier": "every accepted schema, every Struct in it with any number of fields", "why_tests_cant": "ranges over all schemas and all names of fields", "anchors": ["clawc/internal/idl/struct.tmpl", "clawc/internal/render/golang/templates/clawiter.tmpl", "clawc/internal/render/golang/templates/clawingest.tmpl", "clawc/internal/render/golang/templates/structs.tmpl"]}
{"id": "C158", "title": "A generated package declares no name twice", "statement": "For every accepted schema in which no two Enums, values of Enums or Structs have the same name and none of these names is, begins or ends like a generated one, the generated package declares no name twice; for schemas without Enums the compiler itself ensures that the names differ. The package declares every Enum with its values and its two maps, and every Struct with its Raw form and both functions that make it. Refuted without these conditions: the compiler accepts two Enums that both have a value Unknown, and Structs Car and CarRaw, and the package then declares a name twice.", "quantifier": "every accepted schema with any number of Enums, values and Structs", "why_tests_cant": "ranges over all schemas and all names in them", "anchors": ["clawc/internal/idl/struct.tmpl", "clawc/internal/render/golang/templates/enums.tmpl", "clawc/internal/render/golang/templates/mappings.tmpl", "clawc/internal/render/golang/templates/reflect.tmpl", "clawc/internal/render/golang/templates/claw.tmpl"]}
