# Design

A Rocq model of bearlytools/claw (Go, /repo), and machine-checked proofs of the
properties listed in `properties.jsonl`.

## Approach

* `rocq/theories/Model/*.v` hold the model: total, computable Gallina functions,
  one per Go function, each with a comment citing file and lines.  No proofs there.
* `rocq/theories/Spec/*.v` hold small specifications that do not use the model's helpers.
* `rocq/theories/Proofs/*.v` hold lemmas.
* `rocq/theories/Properties/*.v` hold the property theorems, each followed by a
  concrete instance and `Print Assumptions`.

Conventions of the model:

* Bytes and Go integers are `Z`.  Fixed width conversions are written out
  (`u8`, `u16`, `u32`, `u64`, `s8`, ...), so that truncation is visible.
* A Go panic is the value `Panic`; a Go error is `Err`; a loop that can fail to
  terminate takes fuel and returns `Hang` when it runs out.  "Terminates" means that
  some fuel gives another result; "does not terminate" means that no fuel does.
* Concurrent code is a step relation whose steps are the critical sections and
  channel operations of the code; theorems quantify over every finite trace.
* Calls out of the code (network, resolver, handlers, codecs, clocks, random numbers)
  are arguments of a closed section or free choices of the step relation.
* When the full property is false of the code, the theorem proved is its negation on
  the faithful model, named `..._refuted`, with the witness, next to the strongest
  positive part, named `..._partial`.  MANIFEST.json says for each what is missing.

## Trusted base

* The Coq 8.16.1 kernel (and `coqchk`, which checks the compiled files again).
* Axioms: none.  `Print Assumptions` follows every property theorem and prints
  "Closed under the global context" for all of them.  The checker also lists the
  parameters of the library module `Coq.ssr.ssrunder`, which the standard library's own
  `ssreflect` files contain; no theorem depends on them.
* No `Admitted`, no `Axiom`, no section-less `Variable` or `Hypothesis`, no functor or
  module type, no kernel flag, no plugin, no generated code.  Only `Coq.*` libraries are
  imported.
* That the model is the code.  This is by reading: every definition cites the lines it
  models, and says where it simplifies.  The code was not run.
* That the specifications in `Spec/` and the statements in `Properties/` say what the
  English says.

### What is modelled

| part of the code | model |
|---|---|
| clawc/languages/go/segment: headers, segment buffer, structs, scalars, bytes, nested structs, IsSet trailer, parsing, Marshal, Unmarshal, stream framing | Base, Field, Header, Segment, Struct, Scalar, Stream |
| the same on shared arrays (slices with capacity), nested structs as views | Alias |
| lists of bools, numbers, strings, bytes, structs; list objects, cache and dirty lists, generated list accessors | Lists, ListHeap |
| maps and their codecs | MapApi, Maps |
| Any fields, lists of Any | Any |
| segment pools (registration by compare and swap) | PoolReg |
| clawc/languages/go/clawiter: tokens, token stream, SkipValue; generated Walk and Ingest methods | Token, TokenStream, Walk, Ingest |
| languages/go/clawjson (writer and reader) | Json, JsonRead, Escape, Utf8 |
| languages/go/clawtext (writer and reader) | ClawText, Escape, Utf8 |
| languages/go/pack | Pack |
| languages/go/patch: Diff, Apply, the patch messages; recording of mutations | Patch, PatchLists, Scalar, ListHeap |
| rpc/client: connection, sessions, opens, read loop, Close, GracefulClose, receive loops, synchronous client | Client, RecvIter, SyncClient |
| rpc/server: connection, sessions, handlers, limits, shutdown, stream interceptors, registry | ServerConn, ServerConns, StreamRun, Registry |
| packing negotiation | Packing |
| rpc/client/pool, balancers, pickers, sub-connections | Pool, SubConn, Balancer |
| rpc/health (service and client) | Health |
| rpc/reflection (service, config and client), rpc/transport/http/server.go: remoteAddr | Reflection |
| clawc/internal/idl/idl.go (ParsePackage, FindNext, ParseVersion, ParseOptions, Import, Enum and Struct parsing, parseMapType, Validate, OrderByValues, the resolution of names in Struct.Render), clawc/internal/idl/options.go | Model/Idl.v (not the lexer halfpike, not the templates) |
| clawc/internal/idl/struct.tmpl (NewXxxFromRaw, ToRaw, XxxRaw) | Raw |
| clawc/internal/imports/module.go, clawc/internal/imports/localreplace.go (parsing and Validate), clawc/internal/work/work.go, clawc/internal/vendor/vendor.go (checkACLPermission, validateACLs, serializeModule) | Model/ClawMod.v (not the lexer halfpike, not the file system; ParseRequire cannot be reached and is left out) |
| clawc/internal/vendor/vendor.go (VendorDependencies, processClawFile and what it calls, createVendorStructure, GetCompilationOrder), clawc/internal/imports/imports.go (Config.Read, read, populateExternals, TransformImportPath, VendoredConfig.Read, readVendored), clawc/internal/vcs/vcs.go (InRepo) | Model/Vendor.v (file system, git and fetching are functions; parsers as in Model/Idl.v and Model/ClawMod.v; not VendorSingleDependency) |
| clawc/internal/vendor/vendor.go (VendorSingleDependency, processSingleDependency); Failures to write, progress output and the reading of claw.mod and local.replace (an option each) are left out | VendorGet |
| clawc/clawc.go (handleCompile, compileDependency, compileLocalDependency, isLocalDependency, findClawFileInDir); finding the schema and the absolute path from the argument, and directories whose name ends in .claw, are left out; reading, rendering and writing one package is an oracle here (see C101 to C103, C134 to C136) | Compile |
| clawc/internal/render/golang/templates/reflect.tmpl:21-118, languages/go/reflect/internal/value/impl.go:20-145 (package, struct and field lookups), languages/go/reflect/enums/enums.go; the descriptors of imports, and SD and EG of the fields, are left out | ReflectDescr |
| clawc/internal/idl/idl.go:738-1038 (the Go type names of a field), languages/go/field/field.go:200-257 (GoType), the names of tables in mappings.tmpl:38-55 and struct.tmpl:567; the rest of struct.tmpl's text is left out, and that Go refuses an assignment between different map types is Go's rule | GoTypes |
| clawc/internal/idl/struct.tmpl (receivers and names of all methods), and the methods of clawiter.tmpl, clawingest.tmpl and structs.tmpl; their bodies are left out here | Methods |
| clawc/internal/idl/struct.tmpl, claw.tmpl, enums.tmpl, mappings.tmpl, reflect.tmpl (names that the package declares); init, _ and imports are left out | PkgNames |
| rpc/transport/tcp/client.go, rpc/transport/tcp/server.go (ServerTransport), rpc/transport/unix/client.go, rpc/transport/unix/server.go (ServerTransport) | Model/Transport.v (bufio and net.Conn by their effect; deadlines, options, addresses and the back-off of Reconnect are left out) |
| rpc/transport/tcp/server.go (Listener, Server), rpc/transport/unix/server.go (Listener, Server) | Model/Listener.v (the kernel's queue of connections and the accept goroutine by their effect; addresses, options and the socket file are left out) |
| rpc/transport/http/server.go (ServeHTTP), rpc/transport/http/conn.go (serverTransport) | Model/HttpServer.v (the RPC server is any caller of the transport; addresses, headers other than Content-Type and the callback are left out) |
| rpc/transport/http/client.go (connect, cleanupLocked, Read, Write, Close, Connected) | Model/HttpClient.v (io.Pipe is part of the model; net/http's client is any reader of the body that answers or fails at any time; the bytes of answers, options and the backoff are left out) |
| languages/go/reflect/internal/value/impl.go (StructImpl: Get, Has, Set, Clear, Fields, Range; the lists Get makes), value.go (Any, Enum, String), valueof.go; languages/go/reflect/enums | Model/GoReflect.v (the methods of the list values and NewField are in Model/GoReflectList.v; registries' locks and names of descriptors are left out) |
| rpc/server/conn.go:382-527, 603-703 (runHandler, runSyncHandler, sendMsg, sendPayload, sendClose), rpc/server/handlers.go (the streams, errCodeFromError) | Model/SrvSession.v (interceptors and their adapters, compression and the text of errors are left out) |
| One sync session from end to end | Model/SyncSystem.v (puts Model/SyncClient.v and Model/SrvSession.v together; the connection keeps the order and may lose messages) |
| One server stream from end to end | Spec/StreamSystem.v (relates Model/RecvIter.v and Model/SrvSession.v; the connection keeps the order of the messages of a session) |
| rpc/client/client.go:1217-1266 (pingLoop) with markActivity, handlePong and what holds up the read loop | Model/Keepalive.v (discrete time; one session; goroutines that can run do so before time passes) |
| rpc/client/bidir.go, send.go and recv.go: Send, CloseSend, Cancel, Close, over sendPayload, sendCancel, closeSession and sendMsg | Model/CliStream.v (compression is transparent; a message that the transport does not take whole is not on the wire) |
| segment/lists.go:973-1260 (Structs), getters.go:236-258, the generated list accessor, and Diff and Apply of lists of structs (diff.go:687-776, 1032-1060; apply.go) | Model/StructsList.v (one field of one struct; items are values with their codec, Diff and Apply as arguments; what a write into an item that is a view of the parent's segment does is left open) |
| clawc/languages/go/segment/maps.go:83-123, 156-170: recording of map changes | Model/PatchMaps.v |
| rpc/server: WithMaxConcurrentRPCs, newServerConn, serve and handleOpen as far as the limited pool goes | Model/SrvLimit.v (the pool by its effect; channels of sessions without bound) |
| rpc/interceptor/otel/otel.go, config.go | Model/Otel.v (events instead of the telemetry library; span attributes and durations left out; gostdlib's errors.E in both of its possible forms) |
| rpc/transport/resolver/dns/dns.go, passthrough/passthrough.go; rpc/transport/transport.go:69-166 | Model/Dns.v (ParseIP and the name server are arguments; SplitHostPort and JoinHostPort are written out from the Go library; timeouts and the choice of the name server left out) |
| rpc/client/client.go: openSession, handleOpenAck, applyCredentials; rpc/server/conn.go: handleOpen, sendOpenAck, the handlers' arguments | Model/OpenCall.v (one Open that is answered; waiting, the pending table and the pool are in Model/Client.v, ServerConn.v and SrvLimit.v) |
| clawc/internal/render/render.go; clawc/internal/writer/golang/golang.go: WriteFiles, getImports | Model/Render.v (the renderers, the go command and the file system are arguments; bytes.TrimSpace for ASCII) |
| clawc/internal/imports/git/git.go, clawc/internal/imports/globalreplace/globalreplace.go, clawc/internal/vcs/vcs.go (Version, NewGit, Root, Origin, Abs), clawc/clawc.go (parsePackageSpec, handleGet up to the vendoring, handleInit, writeWorkFile, writeModFile) | Model/GitFetch.v (go-git, the git command, the file system, the lexer and SHA-256 are arguments; a repository stays the same during a call) |
| clawc/languages/go/mapping/mapping.go, the references between the variables of clawc/internal/render/golang/templates/mappings.tmpl | Model/Mapping.v (the calls of the four registration functions are one event; not Encoders, ScanSizers and LazyDecoders, which nothing fills) |
| The names that clawc/internal/idl/struct.tmpl and clawc/internal/render/golang/templates declare | Model/GoNames.v (not the names of imported packages) |
| languages/go/reflect/internal/value/impl.go:218-427 (lists), 673-746 (NewField) | Model/GoReflectList.v (a struct in a list stands for the pointer to it; not MapImpl, which nothing makes) |
| clawc/internal/binary/binary.go | Model/BinaryPkg.v |
| clawc/internal/bits/bits.go (without BytesInBinary) | Model/BitsPkg.v |
| clawc/languages/go/segment/segment.go:48-127, 174-178, struct.go:94-105, 408-448, 525-533 (pools of one mapping; the pool of base/concurrency/sync is any choice) | Model/Recycle.v |
| rpc/retry, rpc/hedge, rpc/compress, rpc/metadata, rpc/validate, rpc/serviceconfig, rpc/credentials, rpc/interceptor, rpc/transport/resolver (targets) | Retry, Hedge, ErrText, Compress, Metadata, Validate, ServiceConfig, Creds, Chain, Target |

### What is not modelled

* The command lines of clawc, its git and file system access (by their effect in the models of modules and vendoring), and what the
  Go compiler makes of rendered code.  Generated code is modelled from its templates: accessors, Walk and Ingest.
* the line lexer of clawtext (github.com/johnsiilver/halfpike: an argument of the theorems, of which it is asked that it splits lines into words, see [splits] in Spec/ClawText.v; it may drop empty lines or give them); the JSON decoder (jsontext of github.com/go-json-experiment/json: an argument of the theorems, of which it is asked that it returns the tokens of every document, see [decodes] in Spec/JsonRead.v; Proofs/JsonLexer.v has one that does);
  the numbers that strconv prints and reads.
* What patching an item of an unmarshalled list of structs does to the parent's segment.
* Time (timers may fire at any moment), fairness of the scheduler (liveness is stated
  as "a step is enabled" or "the next steps lead there"), memory exhaustion, data races
  inside one struct (the package documents that a struct is not safe for concurrent use).
* TLS, compression algorithms, hashing: abstract.  The kernel's sockets and net/http: by their effect.
* Integer overflow of `len` beyond 2^62 and messages of 4 GiB and more, except where a
  theorem says so: the hypotheses name the limit.
* The `claw_vendor`, `benchmark` and `testing` trees.

## Testing the theorems

`seeded/LOG.jsonl` has one line per wrong program: the definition edited, the edit, the
claim it breaks, the theorems that failed and the theorems tightened because they did not.
The edits are made in a copy of `rocq/` outside /verif from which concrete examples and
refutations are removed, so that a failure comes from a general theorem or its lemmas.

## Per property plan

| id | property | model | how |
|---|---|---|---|
| C01 | Field header round trip | Model/Header.v | Bytes as Z lists, LE get/put and the shift/or code as written; arithmetic lemmas, `lia`. |
| C02 | Map and Any header packing | Model/Header.v, Model/Any.v | as C01. |
| C03 | Scalar read-your-write | Model/Struct.v, Model/Scalar.v | Refinement of the byte buffer to a sorted list of encoded fields; getter read through the refinement. |
| C04 | Field independence | Model/Struct.v | insert/remove refine map insert/delete on the abstract field list; a getter depends only on its own field's bytes. |
| C05 | Sparse encoding | Model/Struct.v | remove refines delete; canonicality (C07). |
| C06 | Wire layout invariant | Model/Struct.v | Invariant by induction over any list of operations. |
| C07 | Canonical encoding | Model/Struct.v | The refinement is functional: the buffer is a function of the abstract list. |
| C08 | Marshal/Unmarshal round trip | Model/Struct.v | The parser (fuel) run on the encoding of an abstract list rebuilds the index; fuel bound proved. |
| C09 | Schema evolution | Model/Struct.v | Same theorem for a reader with a different field count. |
| C10 | Decoding terminates | Model/Struct.v | REFUTED on the faithful model (zero size field). Positive part: terminates when every decoded size is positive, step bound proved. |
| C11 | IsSet trailer is transparent | Model/Struct.v | Positive for <=14 fields; REFUTED for 15..21 fields. |
| C12 | String and bytes read-your-write | Model/Scalar.v | as C03. |
| C13 | Nested struct round trip | Model/Scalar.v, Model/Struct.v | Child buffer re-headed; parser independent of root header. |
| C14 | Bool list round trip | Model/Lists.v | Bit packing lemmas, induction on length. |
| C15 | Number list round trip | Model/Lists.v | Per item codec round trip, induction. |
| C16 | String/bytes list round trip | Model/Lists.v | REFUTED in general; positive when padding < 4. |
| C17 | Struct list round trip | Model/Lists.v | Item scan terminates and returns the items; header number rewriting does not affect getters. |
| C18 | List edits reach the wire | Model/ListHeap.v | State machine over list objects, cache and dirty list (Spec/ListReach.v); positive for a list created and not yet marshalled; REFUTED after a Marshal and for lists parsed from the wire. |
| C19 | Map API is a finite map | Model/MapApi.v | Sorted association list, binary search correctness, refinement to a finite map. |
| C20 | Map encoding deterministic | Model/MapApi.v, Model/Maps.v | Sorted lists with equal lookups are equal; REFUTED for signed zeros. |
| C21 | Map round trip | Model/MapApi.v, Model/Maps.v | Positive when an entry is longer than the padding; REFUTED for uint8 to uint8 and for nested maps. |
| C22 | Any field round trip and type check | Model/Any.v | Type hash as an opaque 16-byte value. |
| C23 | List-of-Any round trip | Model/Any.v | Scan over items. |
| C24 | Unmarshal replaces the content | Model/Struct.v | REFUTED (stale index); positive for a fresh struct (C08). |
| C25 | Stream framing | Model/Stream.v | Reader as a byte list; induction over the message list. |
| C26 | Mutation recording | Model/Scalar.v (recording setters), Model/Patch.v, Model/ListHeap.v | Log = history of calls; replay theorem through Apply, for fields and for lists; REFUTED for clearing a field. |
| C27 | Diff/Apply law | Model/Patch.v, Model/PatchLists.v | Diff, the patch message on the wire and Apply on memory with shared arrays (Model/Alias.v); list fields on list objects; REFUTED for nested structs that grow and lists not yet written; refusals of malformed patches. |
| C28 | Pack/Unpack round trip | Model/Pack.v | Functional model with fuel; induction over words. |
| C29 | Packed size bound | Model/Pack.v | Size accounting by the same induction. |
| C30 | Unpack is total | Model/Pack.v | REFUTED (truncated inputs index out of range); positive on encoder outputs. |
| C31 | 8-byte alignment | Model/Lists.v | REFUTED; positive without odd-size number lists. |
| C32 | Views are isolated | Model/Alias.v | Heap model of slices (array, offset, length, capacity); exact effect of every call; REFUTED by growth within capacity. |
| C33 | Text string escaping round trip | Model/Escape.v | Byte-level escaper and unescaper, induction. |
| C34 | JSON string escaping | Model/Escape.v, Model/Utf8.v | Independent JSON string grammar (Spec/Text.v); escaper output accepted and denotes input. |
| C35 | JSON output is well formed | Model/Json.v | Writer run over the walk of any value tree; independent JSON grammar (Spec/JsonGrammar.v). |
| C36 | Token accessors | Model/Token.v | Two's complement round trips. |
| C37 | Token stream laws | Model/TokenStream.v, Model/Walk.v | Stream as list with one-token lookahead; skip = one value by induction on value trees. |
| C38 | No send on, or double close of, a session channel (client) | Model/Client.v | Step relation for read loop, callers, Close; invariant over all traces. |
| C39 | No send on, or double close of, a session channel (server) | Model/ServerConn.v | as C38. |
| C40 | Draining admits nothing new | Model/Client.v, Model/ServerConn.v | Invariant over all traces. |
| C41 | Graceful close completes | Model/Client.v, Model/ServerConn.v | REFUTED on the client by an explicit trace; positive on the server and for careful client runs. |
| C42 | Graceful shutdown keeps in-flight calls | Model/Client.v | REFUTED for every reachable state with a session in flight. |
| C43 | Ordered, lossless delivery | Model/Client.v, Model/ServerConn.v, Model/RecvIter.v | Per-session history invariant: delivered ++ queued = sent. |
| C44 | Responses reach their request | Model/SyncClient.v | Invariant over all traces of calls sharing a session. |
| C45 | Session ids are unique | Model/ServerConn.v | Counter invariant. |
| C46 | Packed connections stay in sync | Model/Packing.v | REFUTED by explicit runs; positive for calm runs. |
| C47 | First fatal error wins | Model/Client.v, Model/ServerConn.v | Invariant over all traces. |
| C48 | Credentials never leave an insecure transport | Model/Creds.v | Oracle with a call log. |
| C49 | Round robin fairness | Model/Balancer.v | Counting over windows modulo n. |
| C50 | Weighted and priority picks | Model/Balancer.v | as C49. |
| C51 | Sub-connection shutdown is final | Model/SubConn.v | Step relation, invariant. |
| C52 | No connection leak | Model/SubConn.v | REFUTED by an explicit schedule. |
| C53 | Pool Close is idempotent | Model/Pool.v | REFUTED by an explicit schedule of two closers. |
| C54 | Retry attempts | Model/Retry.v | Outcome sequence as an oracle; DefaultPolicy comment (3 attempts) REFUTED: 4. |
| C55 | Backoff bounds | Model/Retry.v | Exact integer backoff model, invariant by induction. |
| C56 | Hedging | Model/Hedge.v | Transition system of the interceptor, every schedule and arrival order. |
| C57 | Service config precedence | Model/ServiceConfig.v | Finite map lookups, independent specificity spec. |
| C58 | Target parsing | Model/Target.v | String search lemmas. |
| C59 | Metadata is case-insensitive | Model/Metadata.v | ASCII lower casing; finite map. |
| C60 | Interceptor chains | Model/Chain.v | Equational, list induction. |
| C61 | Handler registry | Model/Registry.v | History induction; key injectivity needs '/'-free names (REFUTED otherwise). |
| C62 | Connection limit | Model/ServerConns.v | Step relation, invariant. |
| C63 | Validation gate | Model/Validate.v | Call log. |
| C64 | Compression transparency | Model/Compress.v | Section over abstract codecs. |
| C65 | Pool registration | Model/PoolReg.v | CAS step relation over any number of threads. |
| C66 | A pool serves calls from its ready backends | Model/Pool.v | No lost wake-up as an invariant over all traces; REFUTED without health checking. |
| C67 | Sessions do not hold each other up | Model/Client.v | REFUTED: a full session channel blocks the read loop, for every such state. |
| C68 | Cancelling one call leaves the other calls of the client alone | Model/ServerConn.v | REFUTED by an explicit trace. |
| C69 | Calls on an ended session fail cleanly | Model/SyncClient.v | Invariant over all traces; REFUTED after the end of the session. |
| C70 | Stream interceptors may wrap the stream | Model/StreamRun.v | Interceptors as functions on streams; REFUTED for wrapping ones. |
| C71 | Text string field round trip | Model/Escape.v | Lexer and reader of one text field; REFUTED for quotes. |
| C72 | Walk stops on request | Model/Walk.v | Walk as a fold with a callback that may stop; REFUTED for nested structs. |
| C73 | JSON output represents the struct | Model/Json.v | The document denotes the struct (Spec/JsonGrammar.v), by induction on values; REFUTED for keys that are not strings. |
| C74 | Each open gets its own answer | Model/Client.v | Invariant over all traces relating calls, ids, answers and sessions. |
| C75 | A stream's end and its error are reported | Model/RecvIter.v | Product of the loop with the connection; REFUTED for late errors and lost connections. |
| C76 | Ingest is the inverse of Walk | Model/Ingest.v, Model/Walk.v | Ingest of the walk of a message = the merge of Spec/Ingest.v, by induction on messages; inverse on whole messages. |
| C77 | Ingest ignores unknown fields on request and refuses them otherwise | Model/Ingest.v | From C76 and C37; REFUTED for lists of Any. |
| C78 | Ingest of arbitrary tokens ends with an error or a struct | Model/Ingest.v | Every loop takes a token (measure); reading on never changes a result (prefix lemma). |
| C79 | JSON round trip | Model/Json.v, Model/JsonRead.v, Model/Ingest.v | From C73 (what the writer writes means the struct) and C80; REFUTED for floats, large uint64, bytes, unnamed enum values, maps, Any. |
| C80 | A JSON document is read as the struct it shows | Model/JsonRead.v, Model/Ingest.v | Token sequences that show a struct (Proofs/Rendering.v) are ingested as it; the tokens of a document that shows a struct are such a sequence, by induction on JSON values. REFUTED for unknown arrays. |
| C81 | Unmarshalling arbitrary data as JSON ends with an error or a struct | Model/JsonRead.v | From C78; prefix lemma. |
| C82 | Text round trip | Model/ClawText.v, Model/Ingest.v | The lines of the text of a legible struct are parsed to the tokens that show it (induction on structs), which are ingested as it (Proofs/Rendering.v). REFUTED for true, unset structs, lists, maps, Any, floats, large uint64, base64, unnamed enum values, quotes. |
| C83 | Unmarshalling arbitrary text ends with an error or a struct | Model/ClawText.v | Every parser function consumes lines (measure); then C78. |
| C84 | Comments and empty lines do not change what a text says | Model/ClawText.v | Simulation: the parser on a text and on the padded text yields the same tokens, function by function. |
| C85 | A text with errors is refused | Model/ClawText.v, Model/Ingest.v | Where the parser stops with an error the tokens leave a struct open (depth invariant); Ingest takes only balanced tokens. REFUTED for stray braces, the rest of a line, lists. |
| C86 | A text written as documented is read as the struct it shows | Model/ClawText.v, Model/Ingest.v | Spec/ClawHand.v says, independently of the parser, which texts show which structs; the parser yields tokens that render the struct (induction on the showing), which are ingested as it. REFUTED for several texts of the documentation. |
| C87 | A health check reports the status in force | Model/Health.v | Transition system of any number of checks and status changes; requests and responses are real messages (Model/Struct.v); invariant over traces, linearisation point at the map read; round trip of the messages by C08. |
| C88 | A plain Go struct survives NewXFromRaw, the wire and ToRaw | Model/Raw.v | The template as functions over a declaration (a list of field types per struct type); induction over the plain value, each step a call on a reachable struct (Spec/Reach.v); what is read is tied to the abstract message, so Marshal and Unmarshal come from C08. |
| C89 | Reflection tells what is registered, to those who may know | Model/Reflection.v | The three handlers and the client's readers over the struct model; grouping in association lists, insertion sort for sort.Strings and sort.Slice (names are distinct, C61). The listing is characterised by order and membership and shown unique; reading back by the representation invariant of Spec/Reach.v. Access control over arbitrary ParseIP, SplitHostPort, ParseCIDR and ToLower. |
| C90 | A schema text is read as the schema it shows | Model/Idl.v | The language as relations between lines of words and the schema with its types (Spec/IdlText.v); induction over each of them: types (Proofs/IdlTextTypes.v), then fields, values, declarations, head and file (Proofs/IdlTextFile.v). |
| C91 | An accepted schema is well formed | Model/Idl.v | Invariant over the lines: every parse function keeps `good` (Proofs/IdlSound.v); the field numbers by a pigeonhole argument over the bit table and the sort; resolution of names by cases (Proofs/IdlFinal.v). |
| C92 | Parsing a schema ends with a schema or an error | Model/Idl.v | Panics and running out of fuel are results of the model; induction over the lines shows that item accesses are in range and that every step consumes a line (Proofs/IdlTotal.v). |
| C93 | Code can be generated for every accepted enum | Model/Idl.v | OrderByValues with its slots; filled slots by induction, then pigeonhole; refuted with a gap. |
| C94 | A claw.mod is read as what it shows | Model/ClawMod.v | The documented layouts are a relation between lines and modules (Spec/ClawMod.v); reading by induction over it, soundness and termination by induction over the parser's steps; the saved copy through the lexer's contract. |
| C95 | Only admitted packages import | Model/ClawMod.v | Exact characterisation of the check; the documented rule is a separate definition, refuted by a witness. |
| C96 | The workspace file that counts | Model/ClawMod.v | As C94; the search upwards by induction over the chain of directories. |
| C97 | local.replace replaces imports | Model/ClawMod.v | As C94, with the schema an option (nil); refuted for nil. |
| C98 | The dependency graph has exactly what is imported | Model/Vendor.v | Depth-first search with a ghost post-order: finished packages form a list in which what is imported stands before; closure and acyclicity follow from it; termination because the way has no repetitions (Proofs/Vendor.v); what is found is characterised by a separate specification (Spec/VendorFind.v). |
| C99 | The order of compilation | Model/Vendor.v | The result is that list, reversed. |
| C100 | Vendoring copies exactly the packages from outside | Model/Vendor.v | The writes as a fold over the graph; the places are different for different packages. |
| C101 | Reading a schema reads all that it imports | Model/Vendor.v | Search without memory: success bounds the length of every way, so there is no cycle (Proofs/VendorRead.v). |
| C102 | Reading from the vendor directory reads the same | Model/Vendor.v | Search with memory: what was read is closed but for the packages on the way. |
| C103 | Types from other packages are found in the package imported under the name | Model/Vendor.v | From C101 and what C91 says of external types. |
| C104 | Import paths of generated code | Model/Vendor.v | Directly; refuted by a path that continues the repository's without a slash. |
| C105 | Writes reach the connection whole and in order | Model/Transport.v | A machine with one step per mutex operation and connection event; invariants over all runs (Proofs/Transport.v). |
| C106 | After Close a transport is silent | Model/Transport.v | A relation between the state in which Close has returned and all later ones (Proofs/TransportEnd.v). |
| C107 | No connection is left open | Model/Transport.v | Each open connection is the current one or in the hands of the call that dialed it. |
| C108 | The calls of a transport end | Model/Transport.v | A measure for the steps left; progress by cases on who has the mutexes; the deadlock is an invariant (Proofs/TransportProgress.v). |
| C109 | Accept hands out each connection once | Model/Listener.v | A machine with one step per mutex section, channel operation and event of the listener; invariants over all runs (Proofs/Listener.v), relations between a state and all later ones (Proofs/ListenerMore.v). |
| C110 | A closed server serves no new connection | Model/Listener.v | An invariant on who the server's listener field stands for, then a relation between the state where Close has returned and all later ones (Proofs/ListenerServer.v). |
| C111 | The HTTP handler sends Writes whole and stops in time | Model/HttpServer.v | A machine with one step per mutex section and per call of the ResponseWriter or body; an invariant over all runs, a relation between the state where a Close has returned and all later ones, and a run that ends the handler from any state (Proofs/HttpServer.v). |
| C112 | The HTTP client sends Writes whole | Model/HttpClient.v | A machine with one step per mutex section, per unlocked read of a field, per select and per operation of the pipe; invariants over all runs for the pipes, and for runs without overlapping connects that each request has its own pipe (Proofs/HttpClient*.v). |
| C113 | Closing the HTTP client ends everything | Model/HttpClient.v | A relation between a closed state and all later ones, and a measure that every step of a call makes smaller. |
| C114 | A connected HTTP client is usable | Model/HttpClient.v | An invariant over the runs where connects overlap neither with each other nor with Close; witnesses for the other runs. |
| C115 | Reflection shows what the message holds | Model/GoReflect.v | Get is computed for every field type from the struct invariant; `shows` in Spec/GoReflect.v says what it should be. |
| C116 | Reading by reflection changes nothing | Model/GoReflect.v | Get on a struct with list objects (Model/ListHeap.v): what happens to the message, the bytes, the objects and the cache. |
| C117 | Set and Clear by reflection | Model/GoReflect.v | Set is brought back to the setters of Model/Struct.v, whose effect on the message is known. |
| C118 | Fields goes through the declared fields in order | Model/GoReflect.v | Induction over the declared fields. |
| C119 | A sync session answers its requests in order | Model/SrvSession.v | A session as a state machine with the channel, the handler's goroutine and the wire; an invariant over all events relates requests, calls and messages. |
| C120 | A stream handler gets and sends in order, then comes the status | Model/SrvSession.v | The same machine with any number of Sends in their steps; invariants for what is received, sent, for the trailer and for the Close. |
| C121 | A sync call, from end to end | Model/SyncSystem.v | The client of Model/SyncClient.v and the session of Model/SrvSession.v with two channels of messages between them; an invariant relates what was sent, what has arrived and what is under way. |
| C122 | What a client stream yields is what the handler sent | Model/SrvSession.v, Model/Client.v, Model/RecvIter.v, Spec/StreamSystem.v | The messages the client read on the session are the first of those the server's session sent (a hypothesis about the connection, Spec/StreamSystem.v `brought`); C43 and C75 of the loop and the invariants of the server's session give the rest. |
| C123 | Keepalive tells dead connections from living ones | Model/Keepalive.v | A machine in discrete time with the ticker, the timer, pongCh, the read loop and one session; a goroutine that can take a step does so before time passes. Invariants over all runs. |
| C124 | What a client stream's calls send | Model/CliStream.v | Calls as little programs whose steps interleave at will; an invariant ties each call's position to what it has sent, another makes CloseSend and Close unique. |
| C125 | A handler gets what the client sent, from end to end | Model/CliStream.v with Model/SrvSession.v | The server has read some first part of the client's wire; C120 gives what the handler got of what came in. |
| C126 | A list of structs behaves like a list, and Marshal writes it | Model/StructsList.v | Refinement of the list objects of one field to a plain list, by induction over the calls; an invariant on the objects that wait to be written for Marshal. |
| C127 | Diff, Apply and recording of lists of structs | Model/StructsList.v | The operations that Diff makes are followed one by one (patches, inserts, removes from the end, or one replace) on a base in memory; items are a type with their own writing, reading, Diff and Apply as arguments (C03, C27). |
| C128 | Patches of maps and of Any fields | Model/Patch.v, Model/PatchMaps.v | The field is reached in every Diff; the recorded operations have types that Apply skips. |
| C129 | The limit of concurrent handlers | Model/SrvLimit.v | Invariant on the number of running handlers; an invariant of the state of standstill over all continuations with patient handlers. |
| C130 | Telemetry leaves calls as they are and counts them | Model/Otel.v | What an interceptor does is a list of events and an outcome; cases of the configuration and of the handler's outcome; induction over the calls for the counters. |
| C131 | Trace rules | Model/Otel.v | Equivalence of ShouldTrace with a declarative description; equality of runs with and without rules. |
| C132 | A target is dialled at the addresses and the port that it names | Model/Dns.v | SplitHostPort is characterised for all strings (Proofs/Dns.v); the dials use C49 and C58. |
| C133 | What a call carries to its handler and what its opening tells the caller | Model/OpenCall.v | Instants are integers of nanoseconds, durations wrap like int64; the metadata uses the model and lemmas of C59; induction over the calls of a connection for the session numbers. |
| C134 | Rendering gives every package in every language, or the error of one of them | Model/Render.v | A step relation of the goroutines, the error channel and the cancellation; an invariant over all runs (Proofs/RenderPar.v); a measure for the end. |
| C135 | Cleaning drops the imports of unused helpers and nothing else | Model/Render.v | A declarative description of lines, import lines and occurrence (Spec/Render.v), equivalent to the code's tests for all texts (Proofs/RenderText.v). |
| C136 | The files of the packages are written, or there is an error | Model/Render.v | The writes of the goroutines merged in any way; induction over merges, directory by directory. |
| C137 | A package is fetched at the commit that is asked for | Model/GitFetch.v | Where a package lies, the names of commits and chains of redirects are relations (Spec/GitFetch.v); the fetch is equivalent to them by induction over the redirects. |
| C138 | clawc knows the git and the repository it runs in | Model/GitFetch.v | The regular expression and the splitting at a text as functions; induction over the text. |
| C139 | What init writes is read back | Model/GitFetch.v | The written texts through the lexer's contract and the readers of C94 and C96. |
| C140 | get fetches the package and version it is asked for | Model/GitFetch.v | Trimming and cutting by induction over the text; the fetch by C137. |
| C141 | Every table of fields is prepared once before it is used | Model/Mapping.v | A depth first search over numbered tables; the number of unprepared tables bounds the depth; the new tables are closed under references (Proofs/Mapping.v). |
| C142 | Validate accepts the tables that make sense and reports the others | Model/Mapping.v | Equivalence with descriptions and no cycles (Spec/Mapping.v); it ends by pigeonhole along the path; refuted for cycles by descent on the bound. |
| C143 | The generated package of an accepted schema can be initialized | Model/Mapping.v, Model/Idl.v | References between the variables of the template are the uses between structs, by the types of C91; order by positions in the file. |
| C144 | The generated Go code declares every name once | Model/GoNames.v, Model/Idl.v | Every declared name is a name of the schema with a text in front and behind; a general lemma on such forms of free names (Proofs/GoNames.v), with the finite table of pairs of forms computed. |
| C145 | The lists of Go reflection hold what is set and appended | Model/GoReflectList.v | Slices over numbered arrays with capacity; refinement to cells of a fixed number over all programs (Spec/GoReflectList.v). |
| C146 | NewField gives a new value that is assignable to the field | Model/GoReflectList.v, Model/GoReflect.v | By cases on the type; Set of the new value is Clear (C117). |
| C147 | Closing a client connection ends everything on it | Model/Client.v | Invariant: in a closed connection every session of the tables is cancelled; with the invariants of C74 and C75 for the sessions outside the tables. |
| C148 | Closing a server connection ends the handlers it runs | Model/ServerConn.v | Invariant: a handler that has not returned is in the table, or its requests are at an end, or the read loop is about to close them; after Close the sessions of the table from before Close are cancelled; a request in the hands of the read loop is for a session in the table or one whose handler has returned. |
| C149 | Integers in little endian bytes | Model/BinaryPkg.v | Bytes of the result by division, sign by the range of the type. |
| C150 | Bit ranges and single bits | Model/BitsPkg.v | Every result is described bit by bit (Z.testbit). |
| C151 | Structs from the pool are as good as new | Model/Recycle.v (on Model/Alias.v), Spec/Recycle.v | Invariant over all programs: live structs, pool and kept bytes lie in different arrays, and each live struct equals the one its own calls build. |
| C152 | A struct from Unmarshal lives on the slice it was given | Model/Recycle.v (m_Unmarshal), Spec/OnInput.v | Induction over the calls: each either writes inside of the capacity or moves the struct to a new array. |
| C153 | clawc get vendors a package and all it imports | Model/VendorGet.v, Spec/Vendor.v, Spec/VendorFind.v | The search of C98 with another way to load a node: the same invariant of the graph, with the version per package. |
| C154 | clawc generates code for every package that the schema imports | Model/Compile.v, Spec/Compile.v | The graph of C98 and the order of C99; the jobs of the loop as a relation between packages and files; the files behind the vendoring by induction over the graph. |
| C155 | The descriptors of a generated package are found by name and by number | Model/ReflectDescr.v, Spec/ReflectDescr.v | Names and numbers of an accepted schema are unique (C91), sorting is a permutation, the values of an enum are in order (C93). |
| C156 | The Go types of the generated code are those of the schema | Model/GoTypes.v, Spec/GoTypes.v | By cases of how a field is written (C90), induction over nested map types; the text of the whole schema through C90 and C91. |
| C157 | The generated methods of a Struct have different names and belong to it | Model/Methods.v, Spec/Methods.v | A method is a beginning, the name of the field and an end; two splits of one word are compared by lengths, what is left is a finite check over the table of beginnings and ends. |
| C158 | A generated package declares no name twice | Model/PkgNames.v, Spec/PkgNames.v | As C157: a generated name is a beginning, a name of the schema and an end, and for free names this way to take it apart is the only one; then induction over the declarations. |

## Findings

Where a property is false of the code the witness is a theorem.  In short:

* C10 (Decoding terminates): Witness: a list/struct/map field whose header says size 0 makes the field index loop for ever (C10_decoding_terminates_refuted). Proved: decoding ends for every input in which every decoded field size is positive.
* C11 (IsSet trailer is transparent): Witness: a type with 15 to 21 fields whose trailer bits spell a list, struct or map code (C11_isset_hangs_refuted). Proved for all other trailers.
* C16 (String/bytes list round trip): Witness: one string of eight bytes comes back as two strings (padding of 4 bytes or more is read as an empty item). Proved exactly when the padding is below four bytes, and for empty lists.
* C18 (List edits reach the wire): Witness: edits of a list obtained from a parsed struct, and edits after the first Marshal, are not written. Proved: a newly created list is written with all its edits.
* C20 (Map encoding deterministic): Witness: float keys +0 and -0. Proved for all keys with one bit pattern per key.
* C21 (Map round trip): Witness: a uint8 to uint8 map with one entry comes back with four; nested maps are not written. Proved exactly when no zero entry fits into the padding, so always for struct and Any values.
* C24 (Unmarshal replaces the content): Witness: a field of the old content that the new message lacks survives. Proved when every field of the old content is in the new message; for a new struct it is C08.
* C26 (Mutation recording): Witnesses: ClearField is not recorded in a replayable way (C26_clear_refuted); replay onto a struct with number lists not yet written fails. Proved for all setters of scalars, strings, bytes and nested structs, and for all list edits otherwise. Recording inside lists of structs is C127, of maps C128.
* C27 (Diff/Apply law): Witnesses: a nested struct that grows overwrites the next field of the base; number lists not yet written. Proved for all other messages of scalars, strings, bytes, nested structs and for lists of bools, numbers, strings and bytes; refusal of malformed patches is proved without restriction. Lists of structs are in C127, maps and Any fields in C128.
* C30 (Unpack is total): Witness: a packed body that ends inside a word indexes out of range and panics. Proved for every body, of any length, that does not end inside a word, whatever the two lengths in the header say.
* C31 (8-byte alignment): Witness: number lists whose item bytes are no multiple of 8. Proved: aligned exactly without such lists.
* C32 (Views are isolated): Witnesses: growth of a nested struct inside the spare capacity overwrites the parent's next field. Proved: exact effect of every call, fields before the child, same size edits, views that have moved.
* C34 (JSON string escaping): The literal written is always valid JSON and denotes the text for every valid UTF-8 string (proved); two different values outside UTF-8 get the same literal.
* C35 (JSON output is well formed): Witnesses: a list of two structs has no comma between them; a map to an unset struct. Proved for every other struct of any nesting.
* C37 (Token stream laws): The stream laws are proved in full; SkipValue is wrong for lists of Any and for maps with nil structs or lists of Any (refuted), proved for every other value of any nesting.
* C41 (Graceful close completes): Server side proved for every trace. Client side: giving up the last pending open of a draining connection never signals that it is drained (C41_client_refuted); proved for every run in which that does not happen.
* C42 (Graceful shutdown keeps in-flight calls): For every reachable connection with a session in flight: the GoAway message cancels it (C42_inflight_refuted holds of all such states, so there is no positive part for the client).
* C46 (Packed connections stay in sync): Witnesses: a second Open, a ping during the first Open, an abandoned Open. Proved: runs in which only the first Open is on its way before the answer (C46_calm_partial).
* C48 (Credentials never leave an insecure transport): Witness: two calls that share a metadata map. Proved for every history in which the maps are kept apart.
* C52 (No connection leak): Witness: two overlapping connection attempts. Proved for every trace without overlapping attempts.
* C53 (Pool Close is idempotent): Witness: two concurrent calls of Close both close the channel and the second panics. Proved for every execution in which no two calls are between test and close at the same time, and that a closed pool stays closed.
* C54 (Retry attempts): The number of invocations, which errors are retried and the order of attempts are proved exactly; the documented total of 3 attempts is false (4), so the property as documented is refuted.
* C55 (Backoff bounds): Every wait but the first is bounded by MaxBackoff and the waits grow as documented until then; the first wait is InitialBackoff even above MaxBackoff (refuted).
* C59 (Metadata is case-insensitive): Proved for all metadata made by the API, including the wire; a literal MD with upper case keys is refuted.
* C61 (Handler registry): Witness: names with slashes collide. Proved for every history of names without slashes.
* C63 (Validation gate): Server gates and stream gates proved in full; the unary client gate for names without slashes, refuted otherwise.
* C66 (A pool serves calls from its ready backends): Witness: with health checking switched off the list of ready backends is never filled, so no call is ever served. With health checking on, the positive theorems hold for every trace.
* C67 (Sessions do not hold each other up): Witness: one session whose channel is full blocks the read loop for all.
* C68 (Cancelling one call leaves the other calls of the client alone): Witness: the server ends the whole session, whatever request the Cancel names.
* C69 (Calls on an ended session fail cleanly): Witness: a call after the session has ended dereferences nil. Proved until the receive channel is closed.
* C70 (Stream interceptors may wrap the stream): Witness: an interceptor that wraps the stream makes a type assertion fail. Proved for interceptors that pass the stream on.
* C71 (Text string field round trip): Witness: a string with a quote followed by a blank. Proved for strings without quotes.
* C72 (Walk stops on request): Witness: a callback that stops inside a nested struct is called again. Proved for structs without nested structs, lists of structs and maps of structs.
* C73 (JSON output represents the struct): Witness: keys of maps that are not strings are lost. Proved for every other struct that C35 covers.
* C75 (A stream's end and its error are reported): Witnesses: an error that arrives after the end-of-stream payload, and a lost connection. Proved in all other cases, for every interleaving.
* C76 (Ingest is the inverse of Walk): The effect of Ingest on any struct is proved in full (C76_ingest); that it inverts Walk holds for messages without empty nested structs, nil structs in maps and Any values without data, and into a new struct; the other cases are refuted.
* C77 (Ingest ignores unknown fields on request and refuses them otherwise): Proved for unknown fields that SkipValue knows; lists of Any (and maps with nil structs or lists of Any) are refuted, see C37. The refusal is proved without restriction.
* C79 (JSON round trip): The full statement is false of the code: floats, uint64 from 2^63, byte strings and enum values without a name come back changed; maps and Any values are an error (refuted one by one); lists of two structs are not JSON at all (C35). Proved for every struct of bools, other integers, unset floats, named enum values, Unicode text, nested structs, lists of these and lists of at most one struct, empty maps.
* C80 (A JSON document is read as the struct it shows): Proved for documents as in Spec/JsonRead.v (integers in range and below 2^63, no floats other than zero, no maps or Any). Unknown members are ignored unless they are arrays, which are an error (C80_unknown_array_refuted).
* C82 (Text round trip): The full statement is false of the code: the writer's comma sticks to the word before it, so the bool true comes back false, unset structs, lists, maps and Any values (written null,) and set lists, maps and Any values make the text unreadable; floats, uint64 from 2^63, base64 byte strings, enum values without a name and strings with a quote and a blank come back changed or not at all (refuted one by one, for every lexer). Proved for every struct, of any nesting, of false, integers below 2^63, zero floats, named or numbered enum values, byte strings in hexadecimal, Unicode text without quotes, and set structs of these.
* C85 (A text with errors is refused): The full statement is false of the code: textToTokens drops the parser's error; the text after an unmatched closing brace and the rest of a line after a value are ignored, and an error after a struct in a list of numbers is lost (refuted). Proved: for structs of numbers, strings and structs, unknown fields not ignored, every error the parser stops at makes Unmarshal fail.
* C86 (A text written as documented is read as the struct it shows): The full statement is false of the code for texts of the documentation itself: `true,` and `null,` with the comma, lists without a blank after the bracket, map keys with the colon attached, hexadecimal integers, integers for a float, more than one word on the first line of a raw string, a comma after a one-line raw string, base64, Any values, structs on one line, and a comment with a quote after a string of several words (each refuted, for every lexer). Proved: a text laid out as Spec/ClawHand.v says (fields and entries in any order, words with blanks between them, lists on one line or several, nested structs, lists of structs, maps, raw strings, trailing comments) is read as the struct it shows, and comment lines added to it change nothing.
* C88 (A plain Go struct survives NewXFromRaw, the wire and ToRaw): Losses are part of the proved statement (relation back in Spec/Raw.v): -0.0, empty but not nil, pointers to empty structs, nil pointers in lists and maps, Any values (dropped without an error). Refuted without the padding premises: map[uint8]uint8{0: 5} comes back as {0: 0}, []string{""} as []string{"", ""}. Maps with bytes, map or Any values are not modelled.
* C89 (Reflection tells what is registered, to those who may know): The allow list of IP addresses fails open. A request whose address is unknown or is not an IP address is answered (C89_access states this exactly), and behind the HTTP transport the address is the text of the header X-Forwarded-For, which the client chooses: any text that is not an address, or any allowed address, passes (C89_access_refuted_no_address, C89_access_refuted_forwarded). A package or service name with a slash is listed under other names (C89_list_refuted_slash). Two statements of the documentation are thereby only true with a token validator.
* C90 (A schema text is read as the schema it shows): proved for the language of Spec/IdlText.v. docs/schema_language shows more than the parser takes: options behind an enum value (`[jsonName(...)]`), an enum without a size (`Enum CarMake {`), an `options (` block and `Version 0` are all refused, and so is a line of comment inside an import block. The documentation calls keywords case sensitive; enum, struct and import are taken in any case.
* C91 (An accepted schema is well formed): the parser accepts enum numbers that do not fit the declared size (`A @300` in a uint8 enum; the generated constant does not compile) and takes `@65537` for 1; two fields with one name; a field number `@-65536` (read as 0) and `@1@2` (read as 1); maps whose value type is declared nowhere or is an enum (taken for a struct); option text such as `[IsSet(never) ever]`, which is dropped; the first word of a comment without a space behind the slashes is lost.
* C93 (Code can be generated for every accepted enum): OrderByValues and OrderByNames put the value with number v into slot v of a slice that has as many slots as there are values. An enum with a gap, as `Tesla @10` in docs/schema_language, is accepted by the parser and panics when code is generated (text/template turns the panic into an error).
* C94 (A claw.mod is read as what it shows): FindNext refuses every `require` (`len(m.Required) >= 0`); ParseACLs refuses every entry of an `acls (` block (`index != -1 || index != len-1`), so that the only access list there is is `acls = public`; SkipLinesWithComments has the arguments of strings.HasPrefix swapped, so `//text` is refused. The copy that is written for a public module is `acls (` `*` `)` and cannot be read again.
* C95 (Only admitted packages import): checkACLPermission strips `/*` and compares prefixes of characters: `github.com/b/*` admits `github.com/bad/bus`. Packages without a claw.mod are not checked, although the documentation says that by default a .claw file cannot be imported.
* C96 (The workspace file that counts): FindNext stops at the line that carries the end of the file without looking at it: `vendorDir x` without a newline behind it is not seen and the file is refused.
* C97 (local.replace replaces imports): Config.Read passes c.Root, which is not set yet, so Validate dereferences nil for the first entry; the map of imports is by name while the entries are paths.
* C99 (The order of compilation): GetCompilationOrder collects the packages behind what they import and then reverses the list "to get dependencies first", which puts them last.
* C102 (Reading from the vendor directory reads the same): readVendored asks whether a package is already imported before it asks whether it is on the way, and it is entered before its imports are read, so a cycle is only seen if it goes through the root.
* C104 (Import paths of generated code): TransformImportPath and Git.InRepo compare prefixes without a slash: with the repository github.com/a/mono the package github.com/a/monolith/car is taken for a local one; it is not vendored and is looked for in the directory `lith/car`.
* C107 (No connection is left open): connect gives up connMu while it dials; of two calls of Reconnect the second to come back overwrites the connection of the first, which nobody closes any more.
* C108 (The calls of a transport end): ClientTransport.Write (tcp and unix) takes connMu to store the error while it still holds writeMu, and Close and cleanupLocked take writeMu while they hold connMu. A Write that fails while Close or Reconnect is under way blocks both for ever, and every later call. Further, Close waits for writeMu before it closes the connection, so that a Write held up by the peer holds up Close as well, on both sides.
* Not modelled: Read uses the bufio.Reader after it has given back readMu, so that two Reads at the same time race; where Flush fails, Write returns len(p) although not all of it was sent.
* C109 (Accept hands out each connection once): when the context of an Accept is cancelled, the goroutine that waits in listener.Accept stays. The comment says that the connection will be closed, but nothing reads the channel: the next connection is taken, and neither served nor closed.
* C110 (A closed server serves no new connection): Server keeps only the listener of the last Serve. Close closes that one; another Serve goes on with its listener and serves new connections.
* Not modelled: Server.Close says that it closes all active connections, but closes the listener only; the error of pool.Submit is dropped and with it the connection; any error of Accept, also a passing one, ends Serve; the Close of a unix Listener removes the socket file even where a newer listener has made it anew.
* C111 (The HTTP handler sends Writes whole and stops in time): Close takes the mutex that Write holds while it writes. As long as the peer takes no bytes, Close, and with it the handler, does not return (C111_at_once_refuted); nor does a Read begin.
* Not modelled: the handler believes X-Forwarded-For for the remote address, and does not look at the protocol version header.
* C112 (The HTTP client sends Writes whole): connect gives up the mutex between making the pipe and making the request. Two overlapping connects use the second one's pipe for both requests, and the bytes of one Write are divided among them (C112_refuted).
* C113 (Closing the HTTP client ends everything): connect does not look at `closed` again when its answer comes. A Reconnect in progress returns nil after Close, and the answer's body is never closed (C113_connect_refuted).
* C114 (A connected HTTP client is usable): a Close between the two parts of connect makes the request's body a nil *io.PipeReader in a non-nil interface, which panics when the HTTP client touches it (C114_close_refuted). A connect that succeeds after another one has cleaned up leaves the transport connected without a pipe, and the next Write panics (C114_twice_refuted). A connect whose context ended returns the error of the newest context, which is nil if another connect has made one (C114_nil_refuted).
* Not modelled: dialTimeout is never used; the connection ends with the context given to Dial; Reconnect retries ErrClosed like any other error.
* C115 (Reflection shows what the message holds): a list of bools is shown with false items up to the next multiple of 64 (C115_bools). Lists of strings and bytes are always shown empty (C115_blobs). Get of a set Any, list of Any or map panics (C115_panics). The group of a 16-bit enum of an imported package is not found.
* C116 (Reading by reflection changes nothing): Get of a list of strings or bytes puts an empty list in the list cache. The accessor shows it afterwards (C116_emptied), and an Append followed by Marshal sends a message without the old items (C116_lost). Get of a list of numbers hides edits that are not yet written (C116_numbers).
* C117 (Set and Clear by reflection): Set panics for the empty string, nil bytes and every list (C117_refuted), and for an enum number without a name (C117_enum_panics). Clear does nothing for lists, maps and Any (C117_clear_refuted).
* C118 (Fields goes through the declared fields in order): it panics with an Any or map set (C118_refuted), and String panics for a struct with a field that is not set (C118_string).
* C119 (A sync session answers its requests in order): errCodeFromError cuts the 32-bit category down to the 16-bit code, and the category Unknown is 0, so that such errors reach the client as success (C119_failure_refuted, C119_own_category). The first error ends the session, and requests in the channel are neither handled nor answered (C119_others_refuted). runSyncHandler looks neither at the context nor at cancelCh (C119_deadline_refuted).
* C120 (A stream handler gets and sends in order, then comes the status): setErr of the streams has no caller, so Err is always nil, and a stream that the client cancelled looks like one that it ended (C120_broken_refuted). Send looks at `closed` under the mutex and sends after it, so that data can follow EndStream and Close (C120_after_refuted).
* C122 (the client's loop reports the handler's error): the server sends EndStream before Close, the loop ends with EndStream and looks at closeCh without waiting; unless the Close has already been read, an error of a handler that sends is not reported. C122_error_refuted.
* C123 (keepalive): the write of a ping has no timeout, so a peer that is gone behind a full send buffer is not noticed (C123_dead_refuted); a session whose user does not take its payloads keeps the read loop from reading the Pong, and the keepalive closes a healthy connection with all its sessions (C123_alive_refuted); WithPingInterval(0) panics in the goroutine of pingLoop (C123_zero_refuted).
* C125 (client streams): the server drops a payload that is longer than its receive limit and tells nobody, the values after it arrive (C125_dropped_refuted); a Send that a concurrent CloseSend overtakes returns nil, its value comes after the end of stream and the handler's loop ends without it (C125_overtaken_refuted).
* C126 (lists of structs): Marshal takes the list out of the lists to be written and nothing puts it back, so edits after a Marshal are shown by the accessor and never written again (C126_lost, C126_refuted).
* C127 (patches of lists of structs): NewStructs parses the items that are in the segment, so that Apply's replace, insert and remove append to the old items when the base was unmarshalled or marshalled once (C127_wire, C127_refuted, C127_marshalled_refuted); a list-struct-patch with a negative index panics (C127_panics); the recorded SetAll of no items leaves the old items on the wire (C127_record_refuted); changes of items are not recorded (C127_changes_refuted).
* C128 (maps and Any): types with a map or Any cannot be diffed at all (C128_diff), and Apply skips the operations MapSet and MapDelete that the recording of maps makes, without an error (C128_lost, C128_refuted).
* C129 (limit of handlers): handleOpen submits to the limited pool from the read loop, so a full pool stops the reading of payloads, ends of streams, Cancels and Pings of the sessions that run; with handlers that wait for their client the connection is in a deadlock (C129_stuck, C129_refuted). The limit is per connection, the documentation says per server (C129_server_refuted). The pool itself (gostdlib) is not in the tree: that its Submit waits for a place is an assumption of the model.
* C130 (telemetry): the interceptors wrap every error with languages/go/errors.E, whose Category is another Go type than that of rpc/errors. errCodeFromError finds this outer Error first, its category is not one of rpc/errors, and the client gets Internal (or Canceled, DeadlineExceeded) instead of the handler's category (C130_code_lost, C130_code_refuted). gostdlib's E is not in the tree; if it gives back Errors as they are, only errors that are wrapped again are affected (C130_code_keeping_refuted).
* C131 (trace rules): ShouldTrace has no caller; the rules are compiled and never asked (C131_unused, C131_refuted).
* C132 (targets): any error of SplitHostPort is taken for a missing port, so `dns:///[::1]` is looked up as a name (C132_bracketed, C132_bracket_refuted); `host:` gives the empty port (C132_empty_port_refuted). Build always takes the default configuration: the options WithDefaultPort, WithSRV and WithResolveTimeout cannot be given to anything (C132_no_srv).
* C133 (opening of a call): a deadline less than a millisecond away is sent as none, so the handler runs without one (C133_deadline_lost, C133_deadline_refuted). The functions of streams have no access to the metadata of the call (C133_metadata_refuted). sendOpenAck has no metadata, so ResponseMetadata is always nil (C133_no_response_metadata); the trailer of a Close is read by no client code. The code and text of a rejection are dropped: a missing method and a wrong kind are reported as Unavailable (C133_reason_refuted). Session numbers wrap to 0, which the client takes for a rejection while the handler runs (C133_answer_refuted). A peer's deadline above 2^63 ns is in the past (C133_overflow_refuted).
* C135 (imports): the use of a helper is looked for as a text, so a comment that mentions it keeps an import that the Go compiler refuses (C135_comment_refuted).
* C136 (written files): the package name clawiter or clawingest is accepted, and its main file is overwritten by the file of that name (C136_lost, C136_written_refuted). Not modelled: Writer.Write sends to its channel without a way out, so two languages that fail would never end; there is one language. The options WithVendorDir and WithForceRegenerate are stored and never read.
* C137 (versions): Version.FromString takes the v away and then one more character. A version like v1.2.3 is then not a version, is read as a hash, and names no commit: go-git checks out the branch master, and the file is labelled v1.2.3 (C137_tag_refuted; that a missing hash means master is go-git's, and is part of the case, not of the theorems). A version like v10.2.3 passes, but is compared with refs/tags/v10.2.3 and never found. All semantic versions are therefore alike (C137_tags_alike). The version v and paths of fewer than three parts break the program (C137_v_refuted, C137_short_path). For a package that moved, the head of the old repository is asked for in the new one (C137_moved_refuted).
* C138 (git): git 3.0 is refused because the minor version is compared by itself; a repository below a directory like ann.github.io breaks the program; a second occurrence of the repository's name in a path is lost.
* C139 (init): a repository named like my-cars gets a claw.mod that cannot be read (C139_name_refuted).
* C142 (Validate): recursive Structs overflow the stack (C142_validate_refuted), and a field of the own type without Mapping, as the comment of SelfReferential has it, is refused (C142_own_type_refuted). Nothing but tests calls MustValidate.
* C143 (recursive structs): the template names the variable of a struct inside its own initial value, also where SelfReferential is set, and Go refuses such a variable (initialization cycle). clawc accepts the schema (C143_refuted). That Go refuses exactly the cyclic references is Go's rule (language specification, Package initialization) and is the definition go_accepts.
* C144 (names): the constants of all enums of a file share one scope with the structs (C144_enum_values_refuted, C144_package_refuted), and fields share one with the methods made for them and for every struct (C144_methods_refuted). clawc accepts these schemas and generates code that does not compile.
* C145 (lists of reflection): the methods have value receivers, so that Append changes a copy of the slice (C145_append_nothing, for all programs; C145_append_refuted). C145_strings_refuted, C145_structs_refuted, C145_type_refuted: values of other types are taken, and Type says number for a list of numbers.
* C146 (NewField): the struct made for a field has the type of the struct around it (C146_struct, C146_refuted); lists of structs panic in generated code, where the descriptor is a pointer (C146_panics); no list can be stored (C146_no_lists).
* C147 (Close of a client): a session whose id the server gives again is in no table, so that Close and the end of the read loop pass it by (C147_told_refuted). The end of the connection's context stops the loops without closing the connection; calls made later wait for their timeout (C147_stopped_refuted, C147_stopped).
* C148 (Close of a server connection): handleOpen looks at draining and not at closed, so that an Open being handled while Close runs makes a session on a closed connection; its handler runs and is never cancelled, its requests end with the read loop (C148_cancelled_refuted, C148_requests_end).
* C149 (clawc/internal/binary): the generic Put has cases for the unsigned types only; int8, int16 and int32 are written as eight bytes (C149_put_refuted, C149_put_other). The generic PutBuffer makes a slice for the signed types only, and panics for all types but int64 (C149_putbuffer). No other package uses the two.
* C150 (clawc/internal/bits): SetValue only sets bits, and end is looked at for start >= end only (C150_set_get_refuted, C150_range_refuted). No other package uses it.
* C151 (Release): the comment of Marshal asks for MarshalSafe only when the struct is modified later, but Release too destroys the slice that Marshal returned (C151_marshal_lost). Release after Unmarshal clears the caller's slice and puts it in the pool (C151_input_lost; Unmarshal says that the slice must not be used again). Release of a struct from GetNestedStruct clears the header of the field inside of the parent (C151_nested_refuted). Release keeps the segment in the struct, so a second call puts it in the pool twice (C151_twice_refuted).
* C152 (Unmarshal): the struct takes data[:totalSize] with the capacity of data, so a field set later is written over whatever follows the message in the caller's buffer (C152_neighbours_refuted). The comment forbids to use data again, but not the rest of the buffer behind it.
* C153 (clawc get): processSingleDependency uses vm.git without the test for nil that processClawFile has, so outside of a git repository the command panics for each package that no replacement makes a local path (C153_no_git, C153_no_git_refuted). Any error with claw.mod, also one of syntax, gives a module named local without requirements or replacements, silently (Example lib_unread).
* C154 (clawc): handleCompile looks for every package whose path does not begin with the repo of claw.work in the vendor directory, but VendorDependencies does not vendor what a replacement makes a local path, nor what is in the git repository. So a schema that imports a replaced package cannot be compiled (C154_not_vendored, C154_replaced_refuted), and where a copy is left in the vendor directory from before the replacement, that copy is compiled (C154_stale_refuted). Packages are compiled before what they import (see C99).
* C155 (descriptors): FieldDescrByName tests unicode.IsLower(rune(name[0])), the first byte. For an accepted name whose first letter has three bytes, say U+1F08, that byte is a lower case letter of Latin-1, and the lookup panics (C155_field_name_refuted). Enums() of a package without enums is a nil interface, so Enums().ByName panics instead of giving nil (C155_no_enums_refuted).
* C156 (types in generated code): for a map of maps with Structs, Any or []Any inside, MapValueGoType writes `*V` or `any` where MapRawValueGoType writes `*VRaw` or `*segment.MapAnyValue`, and struct.tmpl:998-1023 and 1099-1112 assign the one to the other, which Go refuses (C156_nested says exactly when, C156_nested_refuted). ValueIsExternal is read by three templates and set nowhere, so that a map of Structs of another package yields `XXXMappingparts.Wheel` for `parts.XXXMappingWheel` (C156_map_table_refuted). field.GoType gives `[]bytes`, which is no Go type, for FTBytes; nothing that is generated comes from it, as GoListType is called for lists of numbers only (C156_numbers).
* C157 (methods): struct.tmpl:104 writes `{{ .Name }}` inside the range over the fields, where the dot is the field, so that the IsSet method of an int8 field is declared for a type with the name of the field (C157_receiver_refuted); all other branches write `{{ $struct.Name }}`. Fields such as SetName beside Name, or Marshal, are accepted and give a method twice (C157_distinct_refuted). That Go refuses both is Go's rule.
* C158 (names of a package): enums.tmpl:34 writes the values of an Enum as constants with their bare names, and the compiler compares the names of values only within one Enum; two Enums with a value Unknown are accepted and the constant is declared twice (C158_values_refuted). So are Structs Car and CarRaw (C158_names_refuted). That Go refuses this is Go's rule.
