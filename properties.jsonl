{"id": "C01", "title": "Memory: no dangling edges", "statement": "In an in-memory database, after any sequence of API calls, every edge that a query can return has an outbound vertex and an inbound vertex that both exist at that moment. (Queries that start with an edge presence index lookup are covered by C41.)", "quantifier": "every finite history of API calls (creates, deletes, property writes, bulk inserts, indexing, plugin-level transaction calls) in both debug and release builds", "why_tests_cant": "A test runs a handful of histories; the claim is about every reachable state.", "anchors": ["lib/src/memory/datastore.rs::create_edge", "lib/src/memory/datastore.rs::delete_vertices", "lib/src/memory/datastore.rs::delete_edges", "lib/src/database.rs::bulk_insert"]}
{"id": "C02", "title": "create_vertex never overwrites", "statement": "create_vertex returns true exactly when no vertex with that id existed; on true the database gains exactly that vertex, on false nothing changes (in particular the existing vertex keeps its type).", "quantifier": "every database state and every vertex, both backends", "why_tests_cant": "The 'nothing else changes' half ranges over all stored data.", "anchors": ["lib/src/memory/datastore.rs::create_vertex", "lib/src/rdb/datastore.rs::create_vertex"]}
{"id": "C03", "title": "create_edge requires both endpoints and is idempotent", "statement": "create_edge returns true exactly when both endpoint vertices exist; on true the edge is present afterwards, on false nothing changes; creating an existing edge again changes nothing.", "quantifier": "every database state and every edge, both backends", "why_tests_cant": "Ranges over all states, including self loops and existing edges.", "anchors": ["lib/src/memory/datastore.rs::create_edge", "lib/src/rdb/datastore.rs::create_edge", "lib/src/rdb/managers.rs::EdgeManager::set"]}
{"id": "C04", "title": "Memory: deleting vertices cascades exactly", "statement": "After deleting the vertices selected by a query from an in-memory database, those vertices, their properties, all edges into or out of them and the properties of those edges are gone, and everything else is unchanged.", "quantifier": "every reachable state and every query that selects vertices", "why_tests_cant": "The frame condition (nothing else changes) and the cascade must hold for every graph.", "anchors": ["lib/src/memory/datastore.rs::delete_vertices", "lib/src/database.rs::delete"]}
{"id": "C05", "title": "RocksDB: deleting vertices cascades exactly", "statement": "Same as C04 for the RocksDB datastore: deleting a vertex removes every edge into or out of it, with their properties.", "quantifier": "every reachable state and every query that selects vertices", "why_tests_cant": "The project's own test asks for the inbound edges of the deleted vertex, which is always empty once the vertex is gone, so it cannot see dangling edges.", "anchors": ["lib/src/rdb/managers.rs::VertexManager::delete", "lib/src/rdb/datastore.rs::delete_vertices", "lib/src/tests/vertex.rs::should_delete_a_valid_inbound_vertex"]}
{"id": "C06", "title": "Deleting edges is exact", "statement": "After deleting the edges selected by a query, exactly those edges and their properties are gone; everything else is unchanged.", "quantifier": "every reachable state, every query that selects edges, both backends", "why_tests_cant": "Ranges over all graphs including bulk-loaded ones.", "anchors": ["lib/src/memory/datastore.rs::delete_edges", "lib/src/rdb/datastore.rs::delete_edges", "lib/src/rdb/managers.rs::EdgeManager::delete"]}
{"id": "C07", "title": "A property read returns the last value written", "statement": "After set_properties succeeds, reading that property of each selected element yields the value written, and every other property of every element is unchanged; deleting a property removes exactly it.", "quantifier": "every state, query, name and value, both backends", "why_tests_cant": "Frame condition over all other stored properties and for all values.", "anchors": ["lib/src/memory/datastore.rs::set_vertex_properties", "lib/src/memory/datastore.rs::set_edge_properties", "lib/src/memory/datastore.rs::delete_vertex_properties", "lib/src/rdb/managers.rs::VertexPropertyManager", "lib/src/rdb/managers.rs::EdgePropertyManager"]}
{"id": "C08", "title": "Queries return what the graph semantics says", "statement": "For every query, get returns the value a simple declarative semantics of the query language assigns to it on the current graph (filters, both pipe directions, type filters, limits, properties, includes, counts), or the error that semantics assigns.", "quantifier": "every reachable database state and every query of any nesting depth, both backends", "why_tests_cant": "Unbounded nesting and arbitrary graphs; the code uses range scans, reversed indexes and early exit instead of the semantics.", "anchors": ["lib/src/database.rs::query", "lib/src/memory/datastore.rs", "lib/src/rdb/datastore.rs"]}
{"id": "C09", "title": "Range queries page through all vertices", "statement": "Range queries return vertices in strictly ascending id order starting at start_id, filtered by type and truncated to the limit; repeatedly asking for pages of any positive size starting at next_uuid(last id) returns every vertex exactly once and in order.", "quantifier": "every vertex set, every page size >= 1", "why_tests_cant": "Any number of pages and any ids, including adjacent ones and the largest one.", "anchors": ["lib/src/database.rs::query (RangeVertex)", "lib/src/util.rs::next_uuid", "lib/src/models/queries.rs::RangeVertexQuery"]}
{"id": "C10", "title": "Pipe limits are global and safe", "statement": "A pipe from vertices to edges returns at most limit edges in total over all input vertices, and exactly the first limit of the unlimited result; the subtraction limit - collected never underflows; limit 0 returns nothing.", "quantifier": "every graph, every input, every limit", "why_tests_cant": "Quantifies over limits and graphs; the interaction of per-vertex take and early break has boundary cases.", "anchors": ["lib/src/database.rs::query (Pipe)"]}
{"id": "C11", "title": "Include exports exactly the marked intermediate results", "statement": "get returns one output for each Include that is directly consumed by another query stage, innermost first, followed by the outermost result; adding or removing includes changes neither the outermost result nor what delete and set_properties act on.", "quantifier": "every query with any number and nesting of includes, every state", "why_tests_cant": "Unbounded nesting of stages.", "anchors": ["lib/src/database.rs::query", "lib/src/database.rs::delete", "lib/src/database.rs::set_properties", "lib/src/models/queries.rs::Query::output_len"]}
{"id": "C12", "title": "Counts equal result sizes", "statement": "Counting a query returns the number of items the query itself returns, including the optimised paths for all vertices and all edges.", "quantifier": "every state, every countable query, both backends", "why_tests_cant": "The optimised paths bypass the query evaluator; must agree on every state.", "anchors": ["lib/src/database.rs::query (Count)", "lib/src/memory/datastore.rs::vertex_count", "lib/src/memory/datastore.rs::edge_count", "lib/src/rdb/datastore.rs::vertex_count", "lib/src/rdb/datastore.rs::edge_count"]}
{"id": "C13", "title": "Queries accepted by the builders never fail with OperationOnQuery", "statement": "A query built with the public builder functions never makes get fail with OperationOnQuery, and get/delete/set_properties never panic on an empty output stack.", "quantifier": "every query reachable through the builder API, every state", "why_tests_cant": "Infinitely many query shapes.", "anchors": ["lib/src/models/queries.rs::output_type", "lib/src/models/queries.rs::PipeQuery::new", "lib/src/models/queries.rs::CountQuery::new", "lib/src/database.rs::query"]}
{"id": "C14", "title": "Memory: indexed queries agree with stored properties", "statement": "On an in-memory database, once a property is indexed, presence and value queries return exactly the elements whose stored property matches.", "quantifier": "every reachable history; debug and release builds", "why_tests_cant": "Index maintenance is scattered over all mutations and sits inside debug_assert!, whose arguments are not evaluated in release builds; tests run in debug.", "anchors": ["lib/src/memory/datastore.rs::delete_vertex_properties", "lib/src/memory/datastore.rs::delete_edge_properties", "lib/src/memory/datastore.rs::index_property", "lib/src/memory/datastore.rs::vertex_ids_with_property_value"]}
{"id": "C15", "title": "RocksDB: indexed queries agree with stored properties", "statement": "On a RocksDB database, once a property is indexed, presence and value queries return exactly the elements whose stored property matches.", "quantifier": "every reachable history, including bulk inserts, and every pair of JSON values", "why_tests_cant": "The value index stores a 64-bit hash; batches read the database but not their own pending writes.", "anchors": ["lib/src/rdb/managers.rs::VertexPropertyManager::set", "lib/src/rdb/managers.rs::VertexPropertyValueManager", "lib/src/util.rs::Component::write", "lib/src/models/json.rs::hash"]}
{"id": "C16", "title": "NotIndexed exactly when not indexed", "statement": "A query stage that consults the index of a property fails with NotIndexed if and only if index_property was never called for that name, and indexing is never lost by later calls.", "quantifier": "every history and every query, both backends", "why_tests_cant": "Ranges over histories.", "anchors": ["lib/src/database.rs::query", "lib/src/memory/datastore.rs::index_property", "lib/src/rdb/datastore.rs::index_property"]}
{"id": "C17", "title": "Memory: API calls do not panic", "statement": "No API call on an in-memory database panics (a panic poisons the datastore mutex and makes every later call panic).", "quantifier": "every history, debug and release builds", "why_tests_cant": "Panics depend on particular states: the largest UUID, properties written before their owner exists.", "anchors": ["lib/src/memory/datastore.rs::all_vertex_properties_for_vertex", "lib/src/memory/datastore.rs::delete_vertex_properties", "lib/src/memory/datastore.rs::transaction", "lib/src/util.rs::next_uuid"]}
{"id": "C18", "title": "next_uuid is successor", "statement": "next_uuid returns the immediate successor in UUID order of every UUID but the largest, for which it fails.", "quantifier": "all 2^128 UUIDs", "why_tests_cant": "Domain of 2^128 values with carries.", "anchors": ["lib/src/util.rs::next_uuid"]}
{"id": "C19", "title": "Storage keys are injective, prefix-free and decodable", "statement": "Every key built for a vertex, edge, property or index entry decodes back to the same item, different items get different keys, and a prefix scan for an owner or a property name returns only that owner's or name's entries.", "quantifier": "all UUIDs, identifiers accepted by Identifier::new, hashes", "why_tests_cant": "Infinite input space; variable-length components are concatenated.", "anchors": ["lib/src/util.rs::build", "lib/src/util.rs::Component", "lib/src/util.rs::read_uuid", "lib/src/util.rs::read_identifier", "lib/src/util.rs::read_fixed_length_string", "lib/src/util.rs::read_u64", "lib/src/rdb/managers.rs"]}
{"id": "C20", "title": "RocksDB: everything written can be read", "statement": "In every reachable RocksDB state every stored entry decodes, so no query fails with an I/O or decoding error, provided the property values written are nested at most 127 deep and their floats survive the JSON text form. (Without the proviso it is false: a value nested 128 deep is stored without error and can never be read again.)", "quantifier": "every history of API calls", "why_tests_cant": "Ranges over all histories and all stored bytes.", "anchors": ["lib/src/rdb/managers.rs", "lib/src/util.rs"]}
{"id": "C21", "title": "RocksDB: forward and reversed edge tables mirror each other", "statement": "After any operations, including concurrent ones on many threads, an edge is in the forward table exactly when its reverse is in the reversed table, so outbound and inbound queries agree.", "quantifier": "every history and every interleaving of concurrent operations whose write batches are atomic", "why_tests_cant": "Interleavings cannot be enumerated by tests.", "anchors": ["lib/src/rdb/managers.rs::EdgeManager", "lib/src/rdb/datastore.rs"]}
{"id": "C22", "title": "RocksDB: edges always have an outbound vertex", "statement": "Without bulk insert, every edge stored in a RocksDB database has an existing outbound vertex.", "quantifier": "every history without bulk inserts", "why_tests_cant": "Ranges over histories.", "anchors": ["lib/src/rdb/managers.rs::VertexManager::delete", "lib/src/rdb/datastore.rs::create_edge"]}
{"id": "C23", "title": "RocksDB: a crash leaves a prefix of the history", "statement": "After a crash at any point and reopening, the database always opens, its data is the one after some prefix of the issued calls, never a partial call, and no call made before a sync that returned Ok is lost; the set of indexed properties is the one of that prefix, except for names whose index_property call failed.", "quantifier": "every history and every crash point", "why_tests_cant": "Crash points cannot be enumerated by tests.", "anchors": ["lib/src/rdb/datastore.rs::index_property", "lib/src/rdb/datastore.rs::new_db", "lib/src/rdb/datastore.rs::sync", "lib/src/rdb/managers.rs::MetadataManager"]}
{"id": "C24", "title": "Memory: sync then reopen restores the database; a crash during sync loses nothing", "statement": "After a successful sync, reading the image yields the same database; a crash at any point during sync leaves either the old or the new image.", "quantifier": "every database state, every crash point, every I/O failure point", "why_tests_cant": "Needs every crash and failure point.", "anchors": ["lib/src/memory/datastore.rs::sync", "lib/src/memory/datastore.rs::read_msgpack_db", "lib/src/memory/datastore.rs::create_msgpack_db", "server/src/main.rs"]}
{"id": "C25", "title": "Bulk insert equals item-by-item insertion", "statement": "bulk_insert has the same effect as calling the single-item operations in order.", "quantifier": "every state and every item list, both backends", "why_tests_cant": "Any list length, with repeated ids and dangling items.", "anchors": ["lib/src/database.rs::Transaction::bulk_insert", "lib/src/rdb/datastore.rs::bulk_insert"]}
{"id": "C26", "title": "Failed and read-only calls change nothing", "statement": "get, and any call that returns an error, leave the database unchanged.", "quantifier": "every state and call, both backends", "why_tests_cant": "Ranges over all states and all failing calls.", "anchors": ["lib/src/database.rs::get", "lib/src/database.rs::delete", "lib/src/database.rs::set_properties"]}
{"id": "C27", "title": "Memory: concurrent calls are linearizable", "statement": "Concurrent API calls on an in-memory database behave as if executed one after the other, in an order consistent with real time and with each thread's program order.", "quantifier": "every number of threads and every schedule", "why_tests_cant": "Schedules cannot be enumerated.", "anchors": ["lib/src/memory/datastore.rs::MemoryDatastore::transaction"]}
{"id": "C28", "title": "RocksDB: concurrent calls are linearizable", "statement": "Concurrent API calls on a RocksDB database behave as if executed one after the other; in particular two concurrent create_vertex calls with the same id do not both return true and concurrent property writes keep the index consistent.", "quantifier": "every schedule", "why_tests_cant": "Schedules cannot be enumerated.", "anchors": ["lib/src/rdb/datastore.rs::create_vertex", "lib/src/rdb/datastore.rs::create_edge", "lib/src/rdb/datastore.rs::set_vertex_properties"]}
{"id": "C29", "title": "Both backends answer alike", "statement": "The in-memory and RocksDB backends return the same answers to the same calls (the repository's own fuzz target asserts exactly this).", "quantifier": "every history", "why_tests_cant": "A fuzzer samples; equality must hold for every history.", "anchors": ["lib/fuzz/fuzz_targets/compare.rs", "lib/src/memory/datastore.rs", "lib/src/rdb/datastore.rs"]}
{"id": "C30", "title": "JSON equality is an equivalence consistent with hashing", "statement": "Equality of property values is reflexive, symmetric and transitive, and equal values have equal hashes (the contract of Eq and Hash that HashMap relies on).", "quantifier": "all JSON values of any depth", "why_tests_cant": "Infinite domain; corner cases at integer/float boundaries.", "anchors": ["lib/src/models/json.rs::partial_cmp", "lib/src/models/json.rs::hash", "lib/src/models/json.rs::PartialEq"]}
{"id": "C31", "title": "JSON ordering is consistent", "statement": "The ordering of property values is antisymmetric and transitive, compares integers exactly, and compares arrays and objects lexicographically.", "quantifier": "all JSON values of any depth", "why_tests_cant": "Infinite domain.", "anchors": ["lib/src/models/json.rs::partial_cmp", "lib/src/models/json.rs::partial_cmp_by"]}
{"id": "C32", "title": "Distinct JSON values feed distinct data to the hasher", "statement": "Two property values that are not equal never produce the same hash input, so value index collisions are limited to 64-bit hash accidents.", "quantifier": "all pairs of JSON values", "why_tests_cant": "Infinite domain; nested arrays are delimited by tags only.", "anchors": ["lib/src/models/json.rs::hash"]}
{"id": "C33", "title": "Protobuf conversions round-trip", "statement": "Converting any vertex, edge, query, output value, property, bulk insert item or request to its protobuf form and back yields the same value, for property values nested at most 127 deep whose floats survive the JSON text form.", "quantifier": "all values with identifiers accepted by Identifier::new, queries of any depth", "why_tests_cant": "Unbounded nesting; tests convert a few.", "anchors": ["proto/src/converters.rs"]}
{"id": "C34", "title": "Malformed requests are rejected without effect", "statement": "A request with a missing required field, a UUID that is not 16 bytes, an invalid identifier or unparsable JSON is rejected with invalid_argument and leaves the database unchanged; a bulk insert stream with one malformed item inserts nothing.", "quantifier": "all malformed messages, any stream length and position", "why_tests_cant": "Every position of the malformed part.", "anchors": ["proto/src/converters.rs", "proto/src/server.rs::bulk_insert"]}
{"id": "C35", "title": "A remote call equals a local call", "statement": "Calling through the client and the server has the same result and the same effect on the database as calling the database directly.", "quantifier": "every call and every state", "why_tests_cant": "Ranges over all states and calls.", "anchors": ["proto/src/client.rs", "proto/src/server.rs"]}
{"id": "C36", "title": "Identifier validation", "statement": "Identifier::new accepts a string exactly when it has at most 255 bytes and consists of letters, numbers, dashes and underscores, and an accepted identifier survives the storage encoding unchanged.", "quantifier": "all strings", "why_tests_cant": "Infinite domain, boundary at 255 bytes versus characters.", "anchors": ["lib/src/models/identifiers.rs::Identifier::new", "lib/src/util.rs::Component::write", "lib/src/util.rs::read_identifier"]}
{"id": "C37", "title": "Plugin vertex mapping visits every vertex once", "statement": "If no map call fails, the plugin mapper is called exactly once for every vertex before map returns Ok; if any call that ran failed, map returns an error that one of the calls produced.", "quantifier": "every vertex set, every number of threads, every completion schedule", "why_tests_cant": "Schedules of a thread pool.", "anchors": ["plugins/host/src/util.rs::map", "plugins/naive_vertex_count/src/lib.rs"]}
{"id": "C38", "title": "Plugin loading checks every version", "statement": "A server starts with plugins only if every library reports exactly the server's version info; otherwise it reports the first mismatch; later libraries override earlier entries of the same name; calling an unknown plugin fails with not_found and has no effect.", "quantifier": "every list of libraries", "why_tests_cant": "Any number of libraries.", "anchors": ["proto/src/server.rs::new_with_plugins", "proto/src/server.rs::execute_plugin"]}
{"id": "C39", "title": "Index survives reopen and indexing is idempotent", "statement": "Calling index_property again changes no query answer, and after reopening a RocksDB database the same properties are indexed; a failed index_property call can be retried.", "quantifier": "every history and every write failure", "why_tests_cant": "Needs every failure point.", "anchors": ["lib/src/rdb/datastore.rs::index_property", "lib/src/rdb/datastore.rs::new_db"]}
{"id": "C40", "title": "create_vertex_from_type returns a fresh id", "statement": "create_vertex_from_type either fails with UuidTaken and changes nothing, or returns an id that no vertex had before and which now has the given type.", "quantifier": "every state and every generated UUID", "why_tests_cant": "Ranges over states and generator outputs.", "anchors": ["lib/src/database.rs::create_vertex_from_type"]}
{"id": "C41", "title": "Edge presence lookups return only existing edges", "statement": "A query that starts with a lookup of the edges having an indexed property returns only edges that exist in the database at that moment.", "quantifier": "every history of API calls, both backends, debug and release builds", "why_tests_cant": "needs every order of indexing, property writes, deletes and bulk inserts", "anchors": ["lib/src/memory/datastore.rs edges_with_property_presence", "lib/src/rdb/datastore.rs edges_with_property_presence"]}
{"id": "C42", "title": "Property values survive their JSON text form", "statement": "A property value written as JSON text (as RocksDB stores it and gRPC sends it) is read back as the same value whenever it is nested at most 127 deep and each of its floats is read back from its own digits; deeper values are written but rejected when read; distinct values have distinct text; whatever is read is a valid value.", "quantifier": "all JSON values of any size and depth, all byte strings", "why_tests_cant": "Unbounded strings, numbers and nesting; the reader and the writer disagree only at depth 128.", "anchors": ["lib/src/rdb/managers.rs (serde_json::to_vec, from_slice)", "proto/src/converters.rs (From<Json>, TryInto<Json>)", "lib/src/models/json.rs"]}
{"id": "C43", "title": "A query's result shape is known from the query; the builders accept exactly the answerable queries", "statement": "When get answers a query, its last output is of the kind (vertices, edges, count, vertex properties, edge properties) the query's shape dictates and there is one more output per consumed include; the extract_* helpers return the outermost result exactly when it is of their kind; the builder functions accept exactly the queries that some database can answer, and what they reject fails with OperationOnQuery; set_properties and delete reject queries of the wrong kind without effect.", "quantifier": "all queries of any depth, any backend, any database state", "why_tests_cant": "queries nest without bound and the builders' type check is not the result type (a pipe keeps its input's kind)", "anchors": ["lib/src/models/queries.rs output_type, PipeQuery::new, CountQuery::new", "lib/src/util.rs extract_vertices, extract_edges, extract_count, extract_vertex_properties, extract_edge_properties", "lib/src/database.rs query"]}
{"id": "C44", "title": "Every edge is found from both of its ends", "statement": "Following a vertex outbound (inbound) returns exactly the edges of the database that start (end) there, each once; piping an edge back returns its endpoint; following all vertices in either direction lists every edge of the database exactly once.", "quantifier": "every history of calls, every vertex, edge, type filter and limit, both backends", "why_tests_cant": "needs every combination of creations and deletions; the two directions are served by different tables", "anchors": ["lib/src/database.rs query (PipeQuery)", "lib/src/memory/datastore.rs range_edges, range_reversed_edges", "lib/src/rdb/datastore.rs range_edges, range_reversed_edges"]}
{"id": "C45", "title": "A newly created element is bare", "statement": "Right after create_vertex or create_vertex_from_type reports a new vertex, that vertex has no edges in either direction and no properties; right after create_edge creates an edge that did not exist, it has no properties, even if an element with the same id existed and was deleted before.", "quantifier": "every history of calls before the creation, both backends, debug and release builds", "why_tests_cant": "leftovers depend on the whole history of deletions, index entries and bulk inserts", "anchors": ["lib/src/memory/datastore.rs create_vertex, create_edge, delete_vertices", "lib/src/rdb/datastore.rs create_vertex, create_edge, delete_vertices"]}
{"id": "C46", "title": "The command line client does what its arguments say", "statement": "A command whose arguments are an accepted uuid text (simple, hyphenated, braced or URN form, any letter case), identifier and JSON text has exactly the effect of the corresponding database call and prints that call's result (a vertex or edge that could not be created is reported as an error); any other command fails and changes nothing; the uuid printed for an element is accepted back and means that element only.", "quantifier": "every sequence of command lines, every argument string, both backends behind the server", "why_tests_cant": "all strings as arguments, all prior databases", "anchors": ["client/src/main.rs run, build_vertex_query, build_edge", "proto/src/client.rs", "proto/src/server.rs"]}
{"id": "C47", "title": "What crosses the wire is what was sent", "statement": "A gRPC call within the transport's limits has exactly the effect and result of the same call made locally: the bytes of a request decode at the server to the request the client built, and the bytes of each answer to the answer, also with messages from newer clients that carry extra fields. Limits: a query arrives iff its messages nest at most 100 deep (48 pipe stages always do, 50 never do), and a message iff it is at most 4 MiB. A call beyond the limits, or bytes that are no message, fail with a status and leave the database unchanged.", "quantifier": "every query, request, answer, byte string, sequence of calls, both backends behind the server", "why_tests_cant": "all message values and all byte strings; recursion and size limits are hit only by particular shapes and sizes", "anchors": ["proto/indradb.proto", "proto/src/client.rs Client", "proto/src/server.rs Server", "proto/Cargo.toml tonic, prost"]}
{"id": "C48", "title": "Plugins cannot break the database's guarantees", "statement": "After any sequence of requests to a server, well formed or not, including calls of any loaded plugins that use the database through the transaction they are given, the database is in a state that a sequence of the calls those requests and plugins issued reaches. Hence in-memory databases never return dangling edges, RocksDB databases stay readable, never panic, keep both edge tables in agreement and (without bulk inserts) the outbound vertex of every edge. A plugin that only reads changes nothing, and hello_world answers its greeting. There is no rollback: writes made before a plugin fails stay; a plugin that panics makes an in-memory database unusable.", "quantifier": "every list of plugins, every plugin program over the Transaction API, every sequence of requests, both backends", "why_tests_cant": "all plugin programs and all request sequences", "anchors": ["plugins/host/src/decl.rs Plugin", "proto/src/server.rs execute_plugin", "lib/src/database.rs Transaction", "plugins/hello_world/src/lib.rs"]}
{"id": "C49", "title": "Concurrent clients of a server see one database", "statement": "Whatever requests clients send to a server at the same time, including plugin calls, the responses are those of handling the requests one after the other in some order that agrees with real time; the database is always in a state some sequence of the requests made reaches, so it has no dangling edges; while requests are being handled one of them can go on; a request whose answer does not depend on the database gets that answer whatever others do; a plugin call is atomic. Every request made can be answered, whatever the others do. (For RocksDB a plugin call is not atomic, and requests that overlap and interfere need not be explained by any order; those that do not interfere are.)", "quantifier": "every number of clients, every interleaving of their requests, every list of plugins", "why_tests_cant": "all interleavings of unboundedly many requests", "anchors": ["proto/src/server.rs Server", "lib/src/memory/datastore.rs MemoryDatastore", "lib/src/rdb/datastore.rs RocksdbTransaction", "plugins/host/src/decl.rs Plugin"]}
{"id": "C50", "title": "What a deployed server still has after restarts and crashes", "statement": "Take a server run with a storage path, and any sequence of requests (with plugins), restarts and crashes. A server is always running again afterwards, and it responds from then on as a server that was only asked the requests that were kept: for the in-memory server those before the last acknowledged sync request and those since the last start; for RocksDB all but some of the last ones before a crash, and never one made before an acknowledged sync request. In particular, after an acknowledged sync, any further requests and a restart, the server holds all that was there when the sync was acknowledged.", "quantifier": "every sequence of requests, plugin programs, restarts and crash points", "why_tests_cant": "all request sequences, all crash points, all later conversations", "anchors": ["server/src/main.rs main", "proto/src/server.rs Server", "lib/src/memory/datastore.rs sync, read_msgpack_db, create_msgpack_db", "lib/src/rdb/datastore.rs sync, new_db_with_options"]}
{"id": "C51", "title": "A query written with the builder methods asks for what the methods say", "statement": "Write a query with the library's builder methods: start from all vertices, a range, given vertices or edges, or elements with a property or a property value; go to the outbound or inbound edges of vertices or the outbound or inbound vertices of edges; keep only elements with, without, equal to or not equal to a property; set limits and types in any order and as often as wanted; include. The methods never refuse such a query; the last setting of each kind is in force. When it is run, every element in the answer is one the methods describe, and if no step reached its limit every element the methods describe is in the answer; count gives the number of elements and properties reports exactly their properties, restricted to the last name given. It fails only for a property name that is not indexed. An edge direction's text names that direction and nothing else does.", "quantifier": "every program of builder methods, every history, every backend", "why_tests_cant": "programs of methods have no bound on length, and every graph and every order of settings is meant", "anchors": ["lib/src/models/queries.rs QueryExt, CountQueryExt, RangeVertexQuery, PipeQuery, PipePropertyQuery, EdgeDirection", "lib/src/database.rs query"]}
{"id": "C52", "title": "Queries can be rewritten: laws of query composition", "statement": "Against one state of a database: applying a property filter twice is applying it once, filters can be applied in any order, a filter followed by its negation gives nothing, and a filter and its negation together give back what was filtered. Asking for a list of specific vertices or edges is asking for its parts and joining the answers, also when followed by a hop (up to the hop's limit). A vertex range without a start is a beginning of the listing of all vertices (of the type asked for), and a hop restricted to a type is the hop without the restriction minus elements of other types, as long as the limit is not reached. A property lookup lists the same elements as the corresponding filter on everything.", "quantifier": "every history of calls, every query that is filtered or extended, every name, value, direction, type and limit; both backends", "why_tests_cant": "Laws relate two different evaluation paths (index lookup against filter, per-vertex ranges against whole listings) for every state and every nested query; tests only compare a few queries on a few graphs", "anchors": ["lib/src/database.rs:query", "lib/src/models/queries.rs", "lib/src/memory/datastore.rs", "lib/src/rdb/datastore.rs"]}
{"id": "C53", "title": "The server and the client speak the published protocol", "statement": "Clients in other languages are generated from the published .proto file. Whatever bytes such a client sends as a request of the service, as long as they serialize it according to the schema (fields in any order, padded integers, default values written or left out, fields of newer versions added), are at most 4 MiB per message and at most 100 messages deep, the server does with them what it does with the request. Every request the Rust client sends, and every response the server sends, is a serialization of it of the type the service declares for the call; and the Rust client reads any serialization of a response, of any server, as that response.", "quantifier": "every request and response of the service, every serialization of it within the size and depth limits, every datastore behind the server and every plugin", "why_tests_cant": "The repository's tests only ever connect its own client with its own server, which would agree on any consistently wrong field numbers; and there are infinitely many serializations of each message", "anchors": ["proto/indradb.proto", "proto/src/client.rs", "proto/src/server.rs", "proto/build.rs"]}
{"id": "C54", "title": "Repeating a call is harmless", "statement": "A client that does not know whether its call got through can make it again. create_vertex, create_edge, get, sync and the like, set_properties through a query that does not look at the property being set, delete of vertices and edges through a query whose limits do not cut, delete of properties through a query that does not look at them, bulk_insert (in the memory database: with no vertex listed after an edge): made any number of times in a row, they leave the graph that one call leaves and return what the first call returned (create_vertex returns false, a taken id is refused). With RocksDB, attempts that fail in between change nothing: the graph is that of one successful call (index_property excepted, see C39). The conditions are needed: a delete with a limit deletes more each time, a property set on the neighbours of those that have it spreads, and a memory bulk insert with an edge before its vertices inserts it only the second time.", "quantifier": "all histories, all calls meeting the conditions, all numbers of repetitions, all failures of RocksDB writes, both backends", "why_tests_cant": "A test repeats chosen calls on chosen graphs; whether a repetition is harmless depends on the query, the graph and which attempts failed.", "anchors": ["lib/src/database.rs: Database::{create_vertex, create_edge, delete, set_properties, bulk_insert, index_property}", "lib/src/memory/datastore.rs: MemoryTransaction", "lib/src/rdb/datastore.rs: RocksdbTransaction"]}
{"id": "C55", "title": "Unrelated calls do not affect each other", "statement": "For every call it is known, from its arguments alone, which vertices, edges and properties it can change and which its result and effect can depend on. If neither of two calls (other than index_property) can change what the other depends on, making them in either order gives the same results and the same database; a query is not affected by an update that changes nothing the query looks at; and a call can be moved past any number of calls it is unrelated to. This includes index lookups (also when the index is stale), calls whose write fails with RocksDB, and both build types of the memory datastore, as long as no call panics (a panic poisons the memory datastore).", "quantifier": "all histories, all pairs of unrelated calls, all sequences of calls unrelated to a given one, all failures of RocksDB writes, all codecs and hash functions (RocksDB); debug and release builds, all iteration orders of hash sets, all later sequences of calls (memory)", "why_tests_cant": "A test compares the two orders for chosen calls and data; that a call touches nothing outside its footprint is a statement about all data it might have touched.", "anchors": ["lib/src/database.rs: Database", "lib/src/memory/datastore.rs: MemoryTransaction", "lib/src/rdb/datastore.rs: RocksdbTransaction", "lib/src/rdb/managers.rs"]}
{"id": "C56", "title": "RocksDB: failing reads are reported, never turned into wrong answers or half-done changes", "statement": "If reading from RocksDB fails during a call (unreadable keys, an iterator that breaks off), the call either behaves exactly as if the read had not failed (it did not need it) or returns the datastore error and leaves the stored data unchanged; it never returns a different result and never applies part of its change. A change that is acknowledged with Ok is complete. Histories with failing reads reach no state that histories without them cannot.", "quantifier": "every database state, every history, every call, every set of unreadable keys and every point at which any iterator can break off", "why_tests_cant": "tests run on healthy storage; the failing reads that matter depend on the call, the data and the position in an iteration, and cannot be enumerated", "anchors": ["lib/src/rdb/managers.rs: VertexManager, EdgeManager, EdgeRangeManager, VertexPropertyManager, EdgePropertyManager, *ValueManager, take_with_prefix", "lib/src/rdb/datastore.rs: RocksdbTransaction", "lib/src/database.rs: query, Database"]}
{"id": "C57", "title": "Floating-point property values survive being stored and sent as text, or come back close", "statement": "Property values are stored in RocksDB and sent over gRPC as JSON text. Every finite float has a text that determines it: two different values never have the same text. Every value nested at most 127 deep can be read back from its text (nothing that was written is refused), and what is read has the same structure, keys, strings, integers, booleans and signs, with every float within 2^-49 of its value (plus twice the smallest positive double). A float that is the nearest to a decimal of at most 15 digits (m / 10^p with p <= 22, or m * 10^j between 10^16 and 10^22) comes back exactly, so databases and requests holding only such floats behave as if values were stored exactly. Any JSON number, however it is spelled and however many digits it has, is read exactly if it is an integer fitting 64 bits and otherwise as a float of the same sign within 2^-49 of its value (plus twice the smallest positive double); it is refused only if it is at least (1 - 2^-50) * 2^1024. No text is ever read as an infinity or NaN.", "quantifier": "every finite float and every JSON value containing floats anywhere; every text given to the reader; every history of calls writing such values", "why_tests_cant": "there are 2^64 floats; about one in ten of ordinary values is changed, in ways that depend on all their bits", "anchors": ["lib/src/rdb/managers.rs: VertexPropertyManager::get, set, EdgePropertyManager::get, set (serde_json::from_slice, to_vec)", "proto/src/converters.rs: From<indradb::Json> for crate::Json, TryFrom<crate::Json> for indradb::Json", "lib/Cargo.toml: serde_json without float_roundtrip"]}
{"id": "C58", "title": "What damaged files and power cuts leave of an in-memory database with a path", "statement": "An image file that was cut short anywhere is refused when it is opened: it is never read as a smaller database. Take any sequence of calls, syncs, restarts, crashes and power cuts. When a process runs afterwards, it answers everything as a database that ran exactly the calls that come back: those before a sync whose file reached the disk, and those since the last start. An acknowledged sync whose file has been written to the disk outlives every later power cut, and if power only fails when this is so the database can always be opened again.", "quantifier": "every database state, every cut of its image, every sequence of calls, syncs, restarts, crashes and power cuts, every behaviour of the file system during each", "why_tests_cant": "Needs every power cut and write-back schedule and every truncation of every image.", "anchors": ["lib/src/memory/datastore.rs::sync", "lib/src/memory/datastore.rs::read_msgpack_db", "lib/src/memory/datastore.rs::create_msgpack_db", "server/src/main.rs"]}
{"id": "C59", "title": "Starting, stopping and restarting server processes", "statement": "The command line means what it says: --max-open-files is accepted exactly if it is a decimal number that fits, and the arguments determine the datastore. A start ends in a running server exactly if the arguments parse, the address resolves and is free, the plugins load and the datastore opens; otherwise it changes no running server and no file except, for rocksdb, that directory. No two running servers ever listen on the same address or use the same RocksDB directory. A file or directory is changed only by a sync to (or request to, or start of) a server with that path; servers without a path leave nothing behind. A RocksDB server answers, however often it was stopped and started again on its directory, as one that was never stopped. In-memory servers started one after the other on a path answer as one that was asked exactly the requests that were kept by syncs or came since the last start, and can always be started again.", "quantifier": "every command line, every history of starts, requests to several servers, stops and kills on one machine, every behaviour of name resolution, the file system, RocksDB and plugin loading during each start", "why_tests_cant": "Needs every interleaving of several processes sharing addresses, files and directories, and kills between any two steps of opening a database.", "anchors": ["server/src/cli.rs: parse_cli_args", "server/src/main.rs: main, run_server", "server/src/server.rs: run, run_with_plugins", "lib/src/rdb/datastore.rs: RocksdbDatastore::new_db_with_options, repair", "lib/src/memory/datastore.rs: read_msgpack_db, create_msgpack_db"]}
{"id": "C60", "title": "A failure is reported with its cause", "statement": "The text of an error says which error it was: two errors of the library (or two conversion errors) with the same text are the same error, whatever errors of other libraries they contain, and the code and message of a status the server reports determine what went wrong. A request is refused as invalid exactly if some part of it is missing or malformed, then the message names a fault the request really has, and nothing happened; not-found means the plugin does not exist; internal means that the one call the request asks for failed with the error in the message, or panicked, or that the plugin returned the error in the message. A remote call fails with the text of an error if and only if the local call fails with that error.", "quantifier": "all errors and all texts of foreign errors inside them; all requests, well formed or not; all datastores, plugins and states", "why_tests_cant": "Ranges over all malformed messages at any depth, all texts of foreign errors and all results of calls.", "anchors": ["lib/src/errors.rs: Error, ValidationError (Display, source)", "proto/src/converters.rs: ConversionError, required_field, try_into", "proto/src/server.rs: map_indradb_result, map_conversion_result, map_jh_indra_result, IndraDb for Server", "proto/src/client.rs: Client, ClientError", "plugins/host/src/errors.rs: Error"]}
{"id": "C61", "title": "Concurrent clients of a database that is killed and restarted", "statement": "While several clients use a database at once, its process may be killed at any moment and started again, any number of times. All responses ever given, and what the database holds in the end, are those of requests handled one at a time, in an order that agrees with real time, with the kills between them: a request that was in progress when the process died is never answered and took effect before the kill or never. What had been answered before a sync was called that returned Ok is there after every later kill. No kill leaves a lock behind: after the restart every new request is answered. A database opens again whatever moment the kill left behind.", "quantifier": "all numbers of clients, all requests or calls, all interleavings, all numbers and moments of kills, all plugins (in-memory server), all failing writes within the stated conditions", "why_tests_cant": "Needs every interleaving of concurrent requests combined with every moment at which the process can die.", "anchors": ["lib/src/memory/datastore.rs: MemoryDatastore, InternalMemory, sync", "lib/src/rdb/datastore.rs: RocksdbDatastore, RocksdbTransaction, sync, new_with_options", "proto/src/server.rs: Server, IndraDb for Server", "server/src/main.rs: main"]}
{"id": "C62", "title": "Ids the library makes up are new", "statement": "create_vertex_from_type, Vertex::new and the command line client make up vertex ids. Two ids made by one process are equal exactly when they were made in the same 100 ns and a multiple of 2^14 apart; so all ids of a process differ while the clock does not go back, and so do those of processes that run one after the other. A vertex created with a made-up id is therefore never refused as taken, as long as the program does not itself bring in ids of the same form, and the database never holds the largest UUID, which breaks queries, unless the program brings it in.", "quantifier": "all clocks, all numbers of ids, all histories of calls, both databases", "why_tests_cant": "A repeated id depends on clock readings and counter positions that a test does not meet; needs all clocks and all histories.", "anchors": ["lib/src/util.rs: generate_uuid_v1, CONTEXT, NODE_ID", "lib/src/models/vertices.rs: Vertex::new", "lib/src/database.rs: create_vertex_from_type", "client/src/main.rs: set vertex"]}
{"id": "C63", "title": "Paging while the database changes", "statement": "A client that reads the vertices page by page with range queries, each page starting right after the last vertex of the previous one, while any other calls are made between the pages: it gets ascending ids, so no vertex twice; every vertex reported existed (with the type asked for) when its page was read; every vertex that existed at every page is reported; if nobody deletes vertices, every vertex that existed at the start is reported; the next page can always be read, and the client comes to an end whatever is created meanwhile.", "quantifier": "all histories before, between and after the pages, all page sizes, types and start ids, both databases", "why_tests_cant": "Any changes may happen between any two pages.", "anchors": ["lib/src/models/queries.rs: RangeVertexQuery", "lib/src/database.rs: query (RangeVertex)", "lib/src/util.rs: next_uuid", "lib/src/memory/datastore.rs: range_vertices", "lib/src/rdb/datastore.rs: range_vertices"]}
{"id": "C64", "title": "Reading the same thing twice", "statement": "The same query on an unchanged database: RocksDB gives the same answer, element for element. The memory database does too unless the query starts from an index lookup; then it gives the same elements (properties, counts, errors) in perhaps another order as long as no stage was cut off by its limit, and a last stage that was cut off gives the same number of elements, perhaps others. A delete or set_properties by such a query leaves the same database behind as long as no stage of its query was cut off by its limit; otherwise other elements may be changed.", "quantifier": "all contents of the database, all queries, all hash orders, both databases and both builds", "why_tests_cant": "The order of a hash set is random; a test sees one or two orders of one set.", "anchors": ["lib/src/memory/datastore.rs: vertex_ids_with_property, vertex_ids_with_property_value, edges_with_property, edges_with_property_value", "lib/src/database.rs: query, get", "lib/src/rdb/datastore.rs: RocksdbTransaction"]}
{"id": "C65", "title": "Which texts are accepted as property values", "statement": "A text given as a property value (in a gRPC request, on the command line, or stored in RocksDB) is accepted exactly if it is JSON by the grammar of RFC 8259 nested at most 127 deep, and is read as the value the grammar gives it: any white space, escapes in either case including surrogate pairs, members in any order, the last of several members with the same key, integers exactly if they fit 64 bits. Every other text is refused; no text has two meanings; what the database writes is in the grammar.", "quantifier": "all byte strings and all JSON values", "why_tests_cant": "Every byte string is a possible input, with unbounded length and nesting.", "anchors": ["proto/src/converters.rs: TryFrom<crate::Json> for indradb::Json", "lib/src/rdb/managers.rs: VertexPropertyManager::get, EdgePropertyManager::get (serde_json::from_slice)", "lib/src/models/json.rs"]}
{"id": "C66", "title": "RocksDB: a call whose read fails leaves no trace on the calls running at the same time", "statement": "While other calls run, any read of a call on the RocksDB backend may fail. That call then returns the datastore error, all the other calls return what they would have returned, and the database ends as it would have ended, had the failed call done nothing; the same holds of calls that only read and of calls that fail for another reason. So whatever holds of the stored data at every moment of executions without failing reads also holds with them, and the other calls are linearizable if they are apart from each other (C28), even if the failed calls overlap and interfere with them.", "quantifier": "every history, every number of threads, every interleaving of the calls' accesses, every choice of reads that fail, every set of failed, failing or read-only calls left out", "why_tests_cant": "The interleavings and the moments at which a read can fail are unbounded; tests run on healthy storage, one call at a time.", "anchors": ["lib/src/rdb/datastore.rs: RocksdbTransaction", "lib/src/rdb/managers.rs: all get/iterate methods", "lib/src/database.rs: Database"]}
