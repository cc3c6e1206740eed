{"id": "C01", "title": "The store is a sorted map", "statement": "Starting from an empty core, any sequence of get / put / put_compare_and_swap / del / del_compare_and_swap / version / create_header / traverse calls on one handle returns exactly what the same calls return on a plain sorted association list keyed by bytes, where each put stores (seq, value) with seq = version at the time of the put.", "quantifier": "all finite call sequences, all keys and values (including empty keys and None values), all compare-and-swap callbacks, all traverse configurations the builder accepts", "why_tests_cant": "Splits, rotations and merges depend on the whole history; tests sample a few thousand histories with one branching pattern.", "anchors": ["src/put.rs: Tree::put_compare_and_swap, Tree::put", "src/del.rs: Tree::del_compare_and_swap, Tree::del", "src/tree.rs: Tree::get, Tree::version, Tree::create_header, Tree::traverse", "src/lib.rs: nearest_node, get_index_of_key"]}
{"id": "C02", "title": "Read your write, and nothing else changes", "statement": "After put(k, v) succeeds, get(k) returns (seq, v) with the seq that put returned, and get(k') for every other key k' returns exactly what it returned before the put.", "quantifier": "all reachable stores, all keys k and k', all values", "why_tests_cant": "A split that drops or duplicates a key is visible only on particular tree shapes and for particular other keys.", "anchors": ["src/put.rs: Tree::put_compare_and_swap, Node::split", "src/tree.rs: Tree::get"]}
{"id": "C03", "title": "Delete removes exactly one key", "statement": "After del(k) on a store holding k with sequence number s, del returns Some(s), get(k) returns None and every other key keeps its (seq, value). On a store without k it returns None and changes nothing.", "quantifier": "all reachable stores, all keys", "why_tests_cant": "Deletion has about forty shape cases per level (leaf or internal, rotate or merge, left or right, how far repairs go up); the test module itself says it does not enumerate them.", "anchors": ["src/del.rs: Tree::del_compare_and_swap, Tree::del, repair, repair_one, Side::*"]}
{"id": "C04", "title": "put reports the replaced and the new sequence number", "statement": "put(k, v) returns (old, new) where old is Some(s) exactly when get(k) would have returned sequence number s just before, else None; new is the version just before the block is appended, and version afterwards is new + 1.", "quantifier": "all reachable stores, keys and values", "why_tests_cant": "The matched flag survives several early exits and the split loop; only all-shape reasoning covers every exit.", "anchors": ["src/put.rs: Tree::put, Tree::put_compare_and_swap", "src/tree.rs: Tree::version"]}
{"id": "C05", "title": "put_compare_and_swap is faithful", "statement": "The callback is called exactly once with the entry currently stored under the key (None if absent) and the entry about to be stored (seq = version, key, value). If it returns true the effect and result are those of put; if false nothing is stored, every key keeps its value, and the result is (seq of the old entry, None).", "quantifier": "all reachable stores, keys, values and callbacks", "why_tests_cant": "The callback is an arbitrary function; a test fixes two constant ones.", "anchors": ["src/put.rs: Tree::put_compare_and_swap", "src/hb.rs: Hyperbee::put_compare_and_swap"]}
{"id": "C06", "title": "del_compare_and_swap is faithful", "statement": "If the key is absent the result is None and the callback is not consulted. Otherwise the callback sees the stored entry; on true the key is removed and the result is Some((true, seq)), on false nothing changes and the result is Some((false, seq)).", "quantifier": "all reachable stores, keys and callbacks", "why_tests_cant": "The callback is an arbitrary function and the store an arbitrary history.", "anchors": ["src/del.rs: Tree::del_compare_and_swap", "src/hb.rs: Hyperbee::del_compare_and_swap"]}
{"id": "C07", "title": "Reads and refused writes append nothing", "statement": "get, version, traverse, del of an absent key, refused del_compare_and_swap, and refused put_compare_and_swap on a store that already has its header leave the core byte-for-byte unchanged. (A refused put_compare_and_swap on a completely empty core appends only the header block.)", "quantifier": "all reachable stores, all arguments", "why_tests_cant": "A stray append would show only as an extra block in some history.", "anchors": ["src/tree.rs: Tree::get_root, Tree::ensure_header", "src/put.rs: Tree::put_compare_and_swap", "src/del.rs: Tree::del_compare_and_swap"]}
{"id": "C08", "title": "Append only, one block per write", "statement": "Every call leaves all existing blocks byte-for-byte unchanged. A successful put or del appends exactly one block; the first write to an empty core first appends one header block.", "quantifier": "all call sequences", "why_tests_cant": "A universally quantified statement over histories and over every old block.", "anchors": ["src/blocks.rs: Blocks::add_changes, Blocks::append", "src/tree.rs: Tree::create_header"]}
{"id": "C09", "title": "B-tree shape", "statement": "In every version of every history the tree stored in the core has at most 8 keys per node, at least 4 keys in every non-root node, one more child than keys in every internal node, all leaves at the same depth, a root that is either a leaf or has at least one key, and its in-order keys strictly increasing bytewise.", "quantifier": "all histories, all versions, all nodes", "why_tests_cant": "check_tree in the test module checks sampled histories only, and does not check equal depth.", "anchors": ["src/put.rs: Node::split", "src/del.rs: repair_one, Side::rotate, Side::maybe_merge", "src/test/mod.rs: check_tree"]}
{"id": "C10", "title": "Logarithmic height", "statement": "A tree of height h+1 (h >= 1 edges from root to leaf) that holds n keys satisfies n + 1 >= 2 * 5^h, so every get visits at most 1 + log5((n+1)/2) nodes.", "quantifier": "all histories and versions", "why_tests_cant": "A bound over all sizes.", "anchors": ["src/lib.rs: MAX_KEYS, min_keys, nearest_node", "src/tree.rs: Tree::height"]}
{"id": "C11", "title": "No panic and no hang on a store this library wrote", "statement": "No API call on a store written by this library panics (index out of range, expect, unwrap, arithmetic underflow) or loops forever, as long as the core does not fail.", "quantifier": "all histories, all calls and arguments", "why_tests_cant": "There are more than twenty indexing, remove, pop, unwrap and expect sites whose safety depends on tree invariants.", "anchors": ["src/lib.rs", "src/put.rs", "src/del.rs", "src/blocks.rs", "src/traverse.rs"]}
{"id": "C12", "title": "Forward traversal yields exactly the range", "statement": "traverse(conf) with reversed = false on a non-empty history yields, in strictly increasing key order and each once, exactly the stored entries whose key lies within the configured bounds (with the configured inclusiveness), with their current seq and value, and then ends.", "quantifier": "all reachable stores; all configurations accepted by TraverseConfigBuilder", "why_tests_cant": "The start index arithmetic differs per node kind, match, inclusiveness and position; the bound check ends only the current node's stream.", "anchors": ["src/traverse.rs: Traverse, make_child_key_index_iter, TraverseConfig::in_bounds", "src/tree.rs: Tree::traverse"]}
{"id": "C13", "title": "Reverse traversal is the exact reverse", "statement": "traverse(conf) with reversed = true yields exactly the reverse of what reversed = false yields for the same bounds.", "quantifier": "all reachable stores; all configurations accepted by TraverseConfigBuilder", "why_tests_cant": "Different start arithmetic (with subtraction) from the forward case.", "anchors": ["src/traverse.rs: make_child_key_index_iter, Traverse::poll_next"]}
{"id": "C14", "title": "Traversal bounds for hand-built configurations", "statement": "Because the fields of TraverseConfig are public, the range property should also hold for configurations built without the builder, e.g. min = max with one side exclusive must yield nothing.", "quantifier": "all TraverseConfig values, all reachable stores", "why_tests_cant": "Tests build configurations only through the builder.", "anchors": ["src/traverse.rs: TraverseConfig, TraverseConfig::in_bounds"]}
{"id": "C15", "title": "Builder validation accepts exactly the consistent ranges", "statement": "TraverseConfigBuilder::build rejects every finite pair with max < min and every equal pair that is not inclusive on both sides, and accepts every pair of bounds that some key can satisfy (in particular finite min with max = +infinity given explicitly).", "quantifier": "all builder settings", "why_tests_cant": "Infinite input space of bounds.", "anchors": ["src/traverse.rs: validate_traverse_config_builder"]}
{"id": "C16", "title": "sub() operations act on the prefixed key only", "statement": "For sub = hb.sub(prefix, sep), sub.get/put/del and the compare-and-swap variants return exactly what the parent returns for the key prefix ++ sep ++ key, and sub.put / sub.del leave every parent key that does not start with prefix ++ sep unchanged.", "quantifier": "all prefixes, separators, keys, values and reachable stores", "why_tests_cant": "Quantifies over all byte strings.", "anchors": ["src/prefixed.rs: Prefixed::{get,put,put_compare_and_swap,del,del_compare_and_swap}, with_key_prefix", "src/hb.rs: Hyperbee::sub"]}
{"id": "C17", "title": "Different subs do not collide", "statement": "Two subs with the same one-byte separator and different prefixes that do not contain the separator never map keys to the same parent key; without that condition they can.", "quantifier": "all prefixes, separators and keys", "why_tests_cant": "Quantifies over all byte strings.", "anchors": ["src/prefixed.rs: with_key_prefix, PrefixedConfig"]}
{"id": "C18", "title": "sub traversal yields exactly the sub's keys", "statement": "sub.traverse(conf) yields exactly the keys stored through the sub (prefix and separator stripped) that lie within the bounds, in order, whatever else the parent holds.", "quantifier": "all prefixes, separators, configurations and reachable stores", "why_tests_cant": "Tests use one ASCII prefix and friendly neighbours.", "anchors": ["src/prefixed.rs: Prefixed::traverse, increment_bytes"]}
{"id": "C19", "title": "Block encoding round-trips", "statement": "Decoding the bytes the library appends for a block gives back exactly the key, the value (None distinguished from empty) and the list of nodes; likewise for the header and its metadata.", "quantifier": "all keys, values, node lists with u64 sequence numbers and offsets, all metadata", "why_tests_cant": "Byte-level statement over all inputs, including varint boundaries.", "anchors": ["src/schema.proto", "src/blocks.rs: Blocks::add_changes, make_node_vec, BlockEntry::new", "src/lib.rs: Node::to_level", "src/tree.rs: Tree::create_header"]}
{"id": "C20", "title": "Reopening gives the same store", "statement": "After any history, a fresh handle (empty cache) opened on the same core answers every read exactly as the handle that wrote it.", "quantifier": "all histories, all reads", "why_tests_cant": "The writing handle mutates its cached nodes in place, so warm and cold handles take different data paths.", "anchors": ["src/blocks.rs: Blocks::get, Blocks::cache", "src/tree.rs: Tree::from_hypercore, Tree::from_storage_dir"]}
{"id": "C21", "title": "Every version stays readable", "statement": "For every history and every n, a fresh handle opened on the first n blocks of the core answers exactly as the store did when its version was n.", "quantifier": "all histories and all prefixes of the core", "why_tests_cant": "Quantifies over every past version of every history.", "anchors": ["src/blocks.rs: Blocks::add_changes, reorder_nodes", "src/tree.rs: Tree::get_root"]}
{"id": "C22", "title": "Writes are atomic under crashes and I/O errors", "statement": "For every schedule of read failures, append failures and crashes (including an append that took effect but whose acknowledgement was lost), reopening the core after the failed call shows the store either entirely before or entirely after that call; calls that returned success are never lost.", "quantifier": "all histories, all fault schedules, all crash points at core operations", "why_tests_cant": "Crash points cannot be enumerated by tests.", "anchors": ["src/blocks.rs: Blocks::add_changes, Blocks::append", "src/put.rs", "src/del.rs"]}
{"id": "C23", "title": "A handle survives a failed write", "statement": "After a put or del on a handle returns an error, the same handle (not reopened) continues to answer as if the call had not happened.", "quantifier": "all reachable stores, all fault schedules", "why_tests_cant": "Needs a fault at each internal step.", "anchors": ["src/put.rs: Tree::put_compare_and_swap (in-place insert before append)", "src/del.rs: Tree::del_compare_and_swap (keys.remove before later reads)", "src/blocks.rs: Blocks::cache"]}
{"id": "C24", "title": "Several handles on one core agree", "statement": "Any sequential mix of reads and writes through any number of handles opened at any times on the same core behaves like one sorted map: every handle sees every acknowledged write, despite its own cache.", "quantifier": "all sequential interleavings of whole calls over any number of handles", "why_tests_cant": "Stale caches show only on particular interleavings.", "anchors": ["src/blocks.rs: Blocks::get, cache", "src/tree.rs: Tree::get_root, Clone for Tree"]}
{"id": "C25", "title": "Concurrent readers are correct under every schedule", "statement": "Any number of get and traverse calls running concurrently on one handle, interleaved arbitrarily at every await point, each return the same result they would return alone.", "quantifier": "all numbers of readers, all schedules at await granularity, all reachable stores", "why_tests_cant": "Schedules cannot be enumerated by tests.", "anchors": ["src/blocks.rs: Blocks::get (cache miss race)", "src/lib.rs: nearest_node", "src/tree.rs: Tree::get"]}
{"id": "C26", "title": "Readers on their own handle see a snapshot while others write", "statement": "A get or traverse on a handle that itself does not write, running while other handles append versions to the core at arbitrary moments, returns the result for one single version that was current at some moment during the call.", "quantifier": "all schedules of core growth, all reachable stores", "why_tests_cant": "Schedules cannot be enumerated by tests.", "anchors": ["src/tree.rs: Tree::get_root, Tree::get, Tree::traverse", "src/blocks.rs: Blocks::get"]}
{"id": "C27", "title": "Concurrent puts on one handle are both kept", "statement": "If two put calls on the same handle run concurrently and both return success, afterwards both keys hold their values.", "quantifier": "all schedules of two puts at await granularity", "why_tests_cant": "Needs a specific interleaving of version, root read and append; all Hyperbee methods take only the read lock of the tree.", "anchors": ["src/hb.rs: Hyperbee::put (tree.read())", "src/put.rs: Tree::put_compare_and_swap", "src/blocks.rs: Blocks::add_changes"]}
{"id": "C28", "title": "A get concurrent with a put on the same handle sees old or new", "statement": "A get running concurrently with a put on the same handle returns the value from before or from after the put.", "quantifier": "all schedules of one get and one put", "why_tests_cant": "Needs a specific interleaving.", "anchors": ["src/put.rs: in-place insert and split of cached nodes", "src/tree.rs: Tree::get"]}
{"id": "C29", "title": "A traversal is isolated from writes on the same handle", "statement": "The items of a traverse stream that was created before a put or del on the same handle are those of the store at creation.", "quantifier": "all schedules of a stream and a write", "why_tests_cant": "Needs writes between polls of a stream.", "anchors": ["src/traverse.rs: Traverse", "src/put.rs", "src/del.rs"]}
{"id": "C30", "title": "Read failures never produce wrong answers", "statement": "Under any schedule of failing or missing block reads, get returns either the correct answer or an error; a failed get leaves the handle intact so a later get with working reads returns the correct answer.", "quantifier": "all reachable stores, all keys, all fault schedules", "why_tests_cant": "Fault schedules cannot be enumerated by tests.", "anchors": ["src/blocks.rs: Blocks::get, get_from_core", "src/tree.rs: Tree::get"]}
{"id": "C31", "title": "Blocks are a function of the calls only", "statement": "The bytes appended depend only on the core contents and the call, not on what the handle has cached: the same call sequence on any handles gives byte-identical cores.", "quantifier": "all call sequences, all cache states", "why_tests_cant": "Cache states are history dependent; tests compare with JavaScript output for a few histories only.", "anchors": ["src/blocks.rs: reorder_nodes, Blocks::add_changes", "tests/disk.rs"]}
{"id": "C32", "title": "Block layout", "statement": "In each appended block the root is node 0, the other nodes are numbered in depth-first preorder of the new part of the tree, every child reference points either to an existing node of an earlier block or to a later node of the same block, each new node is referenced exactly once, and the number of nodes is at most 2*height + 3.", "quantifier": "all histories, all blocks", "why_tests_cant": "Layout depends on the path of splits or repairs.", "anchors": ["src/blocks.rs: reorder_nodes, take_children_with_seq", "src/changes.rs: Changes::add_node"]}
{"id": "C33", "title": "seq locates the data", "statement": "Whenever get(k) returns (s, v), the block at index s of the core decodes to key k and value v.", "quantifier": "all reachable stores and keys", "why_tests_cant": "Quantifies over all histories.", "anchors": ["src/lib.rs: Node::get_key_value, KeyValueData"]}
{"id": "C34", "title": "Header discipline", "statement": "create_header(m) succeeds only on an empty core, appends one block that decodes to protocol 'hyperbee' and metadata m, and otherwise fails with HeaderAlreadyExists and changes nothing; the first put on an empty core writes a header without metadata and stores its key at seq 1; get and del on a core of length 0 or 1 return None and traverse fails with NoRootError.", "quantifier": "all cores, all metadata", "why_tests_cant": "Interaction of create_header with all other calls over all histories.", "anchors": ["src/tree.rs: Tree::create_header, Tree::ensure_header, Tree::get_root"]}
{"id": "C35", "title": "Malformed blocks give errors, not panics or hangs", "statement": "On a core whose blocks are arbitrary bytes (for example replicated from a faulty or malicious writer) every read terminates and returns Ok or Err, never a panic.", "quantifier": "all cores, all keys", "why_tests_cant": "The input space is all byte strings.", "anchors": ["src/blocks.rs: make_node_vec (children[i + 1]), BlockEntry::get_tree_node (expect)", "src/lib.rs: nearest_node (loop)"]}
{"id": "C36", "title": "C callback is always called", "statement": "hb_get calls its callback exactly once for every key, with seq 0 for an absent key as its documentation says.", "quantifier": "all stores and keys", "why_tests_cant": "Quantifies over all stores.", "anchors": ["src/external.rs: hb_get, HbGetResultCallback"]}
{"id": "C37", "title": "UniFFI wrappers preserve results", "statement": "The foreign-language get / put / delete / sub / version return the same information as the Rust methods. Every error of the library is passed on with its own name and with the message that error.rs gives it, nested errors and numbers included.", "quantifier": "all results", "why_tests_cant": "Data mapping over all values.", "anchors": ["src/ffi.rs: Gotten, Putten, Hyperbee, Prefixed"]}
{"id": "C38", "title": "Traversal is independent of readiness and never stalls", "statement": "However often the internal futures report Pending before becoming ready, polling the traverse stream to the end yields the same items, and whenever poll_next returns Pending a wake-up has been arranged.", "quantifier": "all readiness schedules of all internal futures, all trees and configurations", "why_tests_cant": "Readiness schedules cannot be enumerated by tests.", "anchors": ["src/traverse.rs: Stream for Traverse, Traverse::poll_next"]}
{"id": "C39", "title": "Deleting everything leaves a usable empty store", "statement": "If every key has been deleted, get returns None for every key, traverse yields nothing (not an error), and later puts behave as on a new store.", "quantifier": "all histories that end with an empty map", "why_tests_cant": "Root replacement cases depend on history.", "anchors": ["src/del.rs: repair (empty root)", "src/tree.rs: Tree::get_root"]}
{"id": "C40", "title": "Keys are ordered bytewise", "statement": "The order used for searching and traversal is the lexicographic order on bytes, a strict total order with the empty key first, and the two infinities lie strictly outside every key.", "quantifier": "all keys", "why_tests_cant": "Quantifies over all byte strings.", "anchors": ["src/keys.rs", "src/traverse.rs: PartialOrd<[u8]> for LimitValue", "src/lib.rs: get_index_of_key"]}
{"id": "C41", "title": "height and print report the true shape", "statement": "height() is 0 without a root and otherwise the number of nodes on every root-to-leaf path; with n entries shown by a stream, a height h > 1 satisfies 2*5^(h-1) <= n+1, and always n+1 <= 9^h; print() lists every stored key once, in order, indented by its depth. When reads fail, each of them gives the same answer or an error, and never panics.", "quantifier": "all reachable stores (UTF-8 keys for print), all storage faults", "why_tests_cant": "Quantifies over all histories.", "anchors": ["src/lib.rs: Node::height", "src/tree.rs: Tree::height, Tree::print", "src/traverse.rs: print"]}
{"id": "C42", "title": "A call on one key reads few blocks", "statement": "On a handle in any state a history of calls can leave it in, even one that has cached nothing, get and put (also with cas) read at most 5 blocks per level of the tree, and del at most 20, whatever storage faults occur; a tree of L levels holds at least 2*5^(L-1)-1 entries (L >= 2). version and create_header read none.", "quantifier": "all histories, handles, keys, fault schedules", "why_tests_cant": "A test measures some trees of some sizes; the bound is for all of them, and a regression that reads siblings or whole nodes needlessly returns the same answers.", "anchors": ["src/lib.rs: get_index_of_key, nearest_node", "src/blocks.rs: Blocks::get", "src/put.rs: put_compare_and_swap", "src/del.rs: repair, can_rotate, maybe_merge"]}
{"id": "C43", "title": "A handle fetches each block once", "statement": "Over its whole life a handle asks the core for at most as many blocks as the core holds, plus one for each error it reports: what was fetched is never fetched again. A call that is given up may cost one block more, and those of its reads that brought no readable block.", "quantifier": "all cores, all histories in which the calls through the handle come one after the other, finished or given up at any step, without reopening it, all fault schedules, anything at all through any number of other handles", "why_tests_cant": "Refetching changes no answer, so tests on results cannot see it, and the bound is over histories of any length.", "anchors": ["src/blocks.rs: Blocks::get", "src/traverse.rs: Traverse::poll_next"]}
{"id": "C44", "title": "Calls may be given up", "statement": "Whenever a call is given up (its future dropped at any point), the core opens as the store before the call, or after it, or as that store with only the header written; every other handle goes on working on that store, and so does the same handle if the call only reads, or once it is opened again. Any number of overlapping reads may be given up at once without any effect on the answers of any handle. All theorems about histories allow such calls anywhere in the history.", "quantifier": "all histories, calls, fault schedules, points of interruption, interleavings of the reads", "why_tests_cant": "A future can be dropped at every await point of every call in every state; tests drop none.", "anchors": ["src/put.rs", "src/del.rs", "src/tree.rs: Tree::get", "src/blocks.rs: Blocks::get", "src/traverse.rs"]}
{"id": "C45", "title": "A handle survives a write that is given up", "statement": "After a put or del on a handle is given up without having reached the core, the same handle (not reopened) answers as if the call had not been made.", "quantifier": "all reachable stores, all points of interruption", "why_tests_cant": "Needs an interruption at each await point.", "anchors": ["src/put.rs: Tree::put_compare_and_swap (in-place insert before append)", "src/del.rs: Tree::del_compare_and_swap (keys.remove before later reads)"]}
{"id": "C46", "title": "Reads do not disturb a write on the same handle", "statement": "While calls that only read (get, traverse, version) are under way on a handle, a put or a del through the same handle answers and changes the store exactly as it does when it is alone.", "quantifier": "all reachable stores, all keys and values, any number of reads, all interleavings", "why_tests_cant": "The damage needs a read that fetches a block at the same time as the write and puts it in the cache later, one interleaving among many; the tests await every call.", "anchors": ["src/blocks.rs: Blocks::get (cache insert after the fetch)", "src/del.rs: repair (looks the deficient child up again)", "src/put.rs: Tree::put_compare_and_swap"]}
{"id": "C47", "title": "Blocks are the messages of schema.proto", "statement": "Every block that is written is a protocol buffer message Node of schema.proto (block 0: a message Header with protocol 'hyperbee' and the given metadata), in one canonical form. A stored block is understood if, and only if, it is a message Node in any form the wire format allows (fields in any order, repeated or unknown fields, groups, numbers packed or not and of any length), and then its content is what the message says.", "quantifier": "all byte strings; all histories", "why_tests_cant": "Tests decode what the library itself encoded; files written by other implementations or versions may use any form.", "anchors": ["src/schema.proto", "src/blocks.rs: BlockEntry::new, Blocks::get", "src/changes.rs", "src/tree.rs: create_header"]}
{"id": "C48", "title": "Writes through different handles at the same time are all kept", "statement": "When two puts run at the same time through two handles on one core and both are answered, both keys are stored afterwards and every other key is as before; and whatever becomes of the two calls, the core stays usable.", "quantifier": "all reachable stores, all keys and values, all interleavings at await points", "why_tests_cant": "Needs one task to be interrupted between reading the length of the core and appending to it; tests await every call.", "anchors": ["src/put.rs: put_compare_and_swap (version before append)", "src/tree.rs: create_header", "src/blocks.rs: Blocks::append"]}
{"id": "C49", "title": "A write stores few bytes", "statement": "Every block is at most logarithmic in the number of entries of its version, plus the key and the value it stores: with a tree of height h over n entries (2*5^h <= n+1 unless h=0) a block has at most 320*(2h+3)+60 bytes besides its key and its value.", "quantifier": "all histories, all blocks", "why_tests_cant": "Tests do not look at the size of blocks, and a block that copied a whole level would pass them.", "anchors": ["src/changes.rs", "src/blocks.rs: add_changes, reorder_nodes", "src/put.rs", "src/del.rs"]}
{"id": "C50", "title": "Only what the blocks say matters", "statement": "Two cores whose blocks say the same (equal bytes, or the same message Node of schema.proto in two forms of the wire format) cannot be told apart: the same events get the same answers and append the same bytes. This holds for cores of any origin and for any events, faults, dropped calls and concurrent tasks included.", "quantifier": "all cores (also malformed ones), all events", "why_tests_cant": "Tests only see cores written by the library itself, in its own form.", "anchors": ["src/blocks.rs: Blocks::get, BlockEntry::new", "src/lib.rs", "src/hb.rs: the public methods"]}
{"id": "C51", "title": "A C program that keeps the rules is safe, leaks nothing and gets right answers", "statement": "The rules: use a runtime or a Hyperbee from its opening to its closing; close a Hyperbee when no get on it is under way (each is answered, or its runtime is closed); free a message or a value once, the value with the length it came with. Then no call and no task does anything undefined; what is allocated is exactly what the program has not given back; every call of a callback carries the sequence number and the value stored for the key of its get, in memory that is there and as long as it says; and no get is answered twice.", "quantifier": "all cores written by histories, all C programs (sequences of the eight functions, any interleaving with any number of gets under way, any storage faults)", "why_tests_cant": "Use after free and leaks show only under particular interleavings of C calls and tasks, and only with a sanitizer.", "anchors": ["src/external.rs: init_runtime, close_runtime, hyperbee_from_storage_directory, close_hyperbee, hb_get, deallocate_rust_string, deallocate_rust_buffer, c_vec_from_vec, from_c, to_c"]}
{"id": "C52", "title": "A Hyperbee can be closed at any time", "statement": "close_hyperbee can be called when a get is under way: the task then ends without touching the freed memory.", "quantifier": "all interleavings of close_hyperbee and the tasks of gets", "why_tests_cant": "The get has to be suspended in a storage access at the moment of the call.", "anchors": ["src/external.rs: close_hyperbee, hb_get, from_c"]}
{"id": "C53", "title": "A del that overlaps a put on the same handle removes its own key and no other", "statement": "A del running concurrently with a put on the same handle removes the entry of its key and no entry of another key.", "quantifier": "all schedules of one del and one put", "why_tests_cant": "The put has to run between two particular awaits of the del.", "anchors": ["src/del.rs: del_compare_and_swap", "src/put.rs: in-place insert into cached nodes"]}
{"id": "C54", "title": "Answers are borne out by blocks, and blocks by calls", "statement": "Whoever wrote the core, whatever calls came before and whatever runs at the same time: the sequence number in an answer is that of a block whose key is the key of the call (for a get: if no write runs on its handle at the same time), the value is the one in that block, every item of a stream is the entry of its block and lies within the bounds; and every entry in a block was there at first or is the one of a put, or the key of a del, among the calls.", "quantifier": "all cores (also malformed ones), all histories of calls including failed, dropped and overlapping ones, all sets of concurrent reads and writes on any handles, all schedules, all storage faults", "why_tests_cant": "Quantifies over all cores and interleavings, including those on which other guarantees are lost.", "anchors": ["src/tree.rs: Tree::get", "src/put.rs", "src/del.rs", "src/traverse.rs", "src/blocks.rs: Blocks::get, add_changes"]}
{"id": "C55", "title": "Reads beside or after an incomplete write show only current entries or the one being put", "statement": "While one put or del is under way through any handle, or after it failed or was dropped at any point, every entry that a get or a stream shows, through any handle including that of the write, is an entry of the store as it was before the write (same key, value and sequence number as a get would have answered), or the entry that the put is putting; never an overwritten or removed entry of an older version, and never one that was put together from several. (For a get the entry may be that of another key, see C28.)", "quantifier": "all histories of the store, all writes, all sets of reads on any usable handles, all schedules, all storage faults, every point at which the write stops", "why_tests_cant": "Quantifies over all interleavings of the write with any number of reads.", "anchors": ["src/tree.rs: Tree::get", "src/traverse.rs", "src/put.rs", "src/del.rs", "src/blocks.rs: Blocks::get, add_changes"]}
{"id": "C56", "title": "A stream reads blocks in proportion to what it shows", "statement": "Whatever its bounds and direction, a stream that is read to its end, on a handle in any state a history can leave it in, even one that has cached nothing, reads at most 4 blocks for each entry it shows, plus 12 for each level of the tree, plus 6; a tree of L levels holds at least 2*5^(L-1)-1 entries (L >= 2). In particular a narrow range of a large tree is found without reading the tree.", "quantifier": "all histories, usable handles, bounds, inclusivities and directions", "why_tests_cant": "A test measures some ranges of some trees; a stream that reads nodes outside its range shows the same entries.", "anchors": ["src/traverse.rs: make_child_key_index_iter, in_bounds, poll_next", "src/lib.rs: get_index_of_key", "src/blocks.rs: Blocks::get"]}
{"id": "C57", "title": "The rules for C programs ask for no more than safety needs", "statement": "Whenever a C program has kept the rules of C51 so far (use what has been opened and not closed, close a Hyperbee when no get on it is under way, free what has been given once and with its length), the next call the rules forbid is undefined behaviour; the one exception is closing a Hyperbee with a get under way, and there, if the get is still reading, neither can the get go on nor can its runtime be closed without undefined behaviour. With C51 the rules are exact: no call they allow is undefined, and none they forbid is safe but closing a Hyperbee whose gets have all finished reading and have yet to call back.", "quantifier": "all histories, sequences of C calls, executor schedules and storage faults", "why_tests_cant": "Undefined behaviour need not show in a test; freeing with another length or freeing twice may seem to work.", "anchors": ["src/external.rs: close_runtime, close_hyperbee, hyperbee_from_storage_directory, hb_get, deallocate_rust_string, deallocate_rust_buffer"]}
{"id": "C58", "title": "The library works on every core that holds a B-tree, whoever wrote it", "statement": "Let a core be empty, or consist of one block, or have as node 0 of its last block the root of a B-tree (all leaves at one depth, at most 8 keys to a node, at least 4 below the root, keys strictly ascending), where block 0 does not decode as a block of a tree. Nothing else is asked of it: the header may be anything, nodes may lie in any blocks and in any order, blocks may carry unknown fields, unused nodes or no tree of their own. Then every history of calls, storage faults included, is answered as by the sorted map of its entries, only appends, and leaves a core of the same kind that holds the entries of the resulting map.", "quantifier": "all such cores, all histories, all storage faults", "why_tests_cant": "Tests start from cores the library wrote itself; what another implementation may lay out differently is unbounded.", "anchors": ["src/tree.rs", "src/put.rs", "src/del.rs", "src/blocks.rs", "src/changes.rs", "src/lib.rs"]}
{"id": "C59", "title": "Whether and how a call ends does not depend on how many rounds its loops are allowed", "statement": "On any core, well formed or not, and with any storage faults: if a call of a tree or of a sub, or print, ends (with an answer, an error or a panic) when its loops may run some number of rounds, then it ends in the same way, with the same effects, when they may run more. The binary search within a node ends whatever the node and the blocks hold.", "quantifier": "all cores, caches and nodes, all calls, all storage faults, all bounds", "why_tests_cant": "Cores are unbounded and may be hostile; a test sees only that it has not ended yet.", "anchors": ["src/lib.rs", "src/tree.rs", "src/traverse.rs", "src/put.rs", "src/del.rs"]}
{"id": "C60", "title": "Calls on one handle do not wait for each other for ever", "statement": "Whatever calls are made on handles at the same time, in whatever order the runtime polls them and whichever of them are given up, there is never a state in which calls are left that all wait for locks; and a call that is polled as often as it takes comes to an end even when others are not polled.", "quantifier": "all cores, all sets of calls on any handles, all orders of polling and dropping their futures, all storage faults", "why_tests_cant": "The window is between two awaits of one expression; a test would have to hit it with another task's request for the same lock.", "anchors": ["src/traverse.rs: get_n_keys_and_children", "src/del.rs: maybe_merge", "src/put.rs", "src/blocks.rs", "src/lib.rs"]}
{"id": "C61", "title": "Locks only forbid interleavings", "statement": "Let any calls run at the same time, holding and waiting for the locks of nodes, children and caches as in the code, polled and given up in any order. Then there is an order of their accesses to the core, the caches and the nodes, without any locks, that leaves the same core, caches and nodes, and gives the same answers.", "quantifier": "all worlds, calls, storage faults and orders of polling and dropping", "why_tests_cant": "It compares all schedules of one system with all schedules of another.", "anchors": ["src/lib.rs", "src/blocks.rs", "src/put.rs", "src/del.rs", "src/traverse.rs", "src/tree.rs"]}
{"id": "C62", "title": "Calls on handles of their own wait for nothing", "statement": "After any history of calls, reopenings, dropped futures and storage faults, a call on a usable handle on which nothing else runs, polled again and again, comes to an end, under any further storage faults: it never waits for a lock of a node, of a node's children or of the cache that it holds itself. Its answer and its effects are those the call has without locks, and it leaves no lock taken. The same holds on every core that holds a B-tree, whoever wrote it. Calls that run at the same time, each on a handle of its own (beside a del only reads), never wait either, in whatever order they are polled and whichever are given up, and all come to an end.", "quantifier": "all histories, handles, calls and storage faults; any number and order of polls", "why_tests_cant": "A hang shows only on the tree shapes that make two names of one lock meet; a merge needs two neighbours to be one node, which no finite set of stores excludes.", "anchors": ["src/del.rs: maybe_merge, repair_one", "src/traverse.rs: get_n_keys_and_children", "src/put.rs", "src/lib.rs", "src/blocks.rs"]}
{"id": "C63", "title": "A reader of a replica sees the writer's versions, or an error", "statement": "Let a reader's core be a replica of a writer's: at any moments, also in the middle of calls, it comes to know of more of the writer's blocks, fetches some of them, in any order, and may drop them again. Then any get, version or traverse calls through any handles on the replica, overlapping in any way, all end without a panic of the call, and each answers from the store the writer had when its core was as long as the replica was at the first step of the call. Only when the call asks for a block that is known of and has not arrived may it fail instead: it then returns NoBlockAtSeqError, or the stream has such errors in place of entries (and panics, as in C30, if it is polled again after failing to build its iterator). A replica that holds all the writer's blocks answers as any handle of the writer does.", "quantifier": "all histories of the writer (faults, dropped futures, several handles), all orders in which blocks arrive, all read calls, all schedules", "why_tests_cant": "The test of replication polls a get until it answers; the order in which blocks arrive beside the steps of a call, and overlapping calls, are beyond it.", "anchors": ["src/hb.rs: Hyperbee::add_stream", "src/blocks.rs: Blocks::get, Blocks::add_stream", "src/test/replicate.rs"]}
