# Formal model of cowlicks/hyperbee in Rocq (Coq 8.16.1)

Sections: 1 what is modelled, 2 how runs, failures and concurrency are modelled, 3 what is not modelled, 4 trusted base,
5 the specification, 6 proof layers, 7 plan and status per property, 8 where the code and the properties disagree,
9 tests of the theorems against wrong programs.

## 1. What is modelled

All Coq files are in `rocq/theories`. Every definition of the model files carries a comment with the file and the lines in `/repo`
that it models; simplifications are stated there.

| source in `/repo/src` | model |
|---|---|
| `keys.rs`, `LimitValue` of `traverse.rs` | `Bytes.v` (byte strings, the order of keys and the two infinities) |
| `schema.proto` as compiled by prost 0.12 | `Codec.v` (varints, tags, wire types, packed fields, unknown fields, encode and decode of `YoloIndex`, `Level`, `Node`, `Header`, `Metadata`; the UTF-8 check of `protocol`, which the library never decodes, is left out) |
| `lib.rs` (nodes, `get_child_index_and_key_value`, ...), `blocks.rs`, `changes.rs`, `tree.rs`, `put.rs`, `del.rs`, `traverse.rs`, `prefixed.rs`, `error.rs` | `Model.v` (1100 lines, function by function) |
| `hb.rs` (the API) | `Model.v` (`api`), `Client.v` (calls as a type, handles on one core), `Subs.v` (calls through a sub) |
| `traverse.rs`: `poll_next` | `Poll.v` (the hand-written state machine; `Model.trav` is the run-to-completion view) |
| `tree.rs`: `height`, `print` | `Model.v` |
| `ffi.rs`, the answers of `external.rs` | `Ffi.v` |
| `RwLock` of nodes, of their children and of the cache, in `lib.rs`, `blocks.rs`, `put.rs`, `del.rs`, `traverse.rs` | `Locks.v` (the functions once more, with their guards; tokio's first come, first served; tasks that wait) |
| `add_stream` of `hb.rs`, `tree.rs`, `blocks.rs`: a reader's core that grows beside its calls | `Replica.v` |
| `external.rs`: pointers, allocations, tasks on a runtime, all eight C functions | `Cffi.v` (a step is one C call or one step of a task; `None` is undefined behaviour) |

Nothing is idealised in the storage format: the model's core is a list of *byte strings* and every block is encoded and decoded by
`Codec.v`.

## 2. How runs, failures and concurrency are modelled

**State.** `core` is the list of byte blocks of the hypercore. A handle (one `Hyperbee`) has a `cache` that maps sequence numbers
to decoded blocks whose nodes are *references into a heap*, and a `heap` of mutable nodes (`Arc<RwLock<Node>>`). put and del change
heap nodes that the cache still points to, as the code does; that is why a failed or interrupted write can spoil a handle.

**Programs.** Each Rust function is a term of type `prog A`: a tree of atomic commands (length of the core, read a block, append a
block, look into / add to the cache, allocate / read / update a node). `run` executes a program to its end, `step` executes one
command. The same terms serve the sequential, the faulty, the interrupted and the concurrent theorems.
A panic is the explicit outcome `SPanic`; loops that Rust would run for ever end in `SDiverge` when the fuel is used up. Theorems
take any fuel above the length of the history, and say that the outcome is neither. On any core at all, more fuel changes no answer
(C59). One loop has a bound of its own, the number of nodes in `reorder_nodes`: it is enough on every core that holds a B-tree (C58),
but where blocks refer to the number of the next block, which nobody has written, a write may end in `SDiverge` without the code
looping.

**Failures.** Every access to the storage consumes one element of a list of faults: none, an error of a read or an append, a block
reported missing, an append that takes effect but reports an error, an error of a read only. All histories quantify over all fault
lists. A *history* (`Spec.event`) is any sequence of calls through any handle, each with its faults, of handles opened again, of
calls given up after any number of steps (the future is dropped), of groups of reading calls interleaved in any way and given
up wherever they are, and of puts with such a group running beside them.

**Concurrency.** `Threads.v`: tasks interleaved command by command under any schedule. This model has no
locks. `Locks.v` has those of nodes, children and caches, with the guards as they live in the code; C61 shows that whatever calls do
there they also do without locks, so that theorems about all schedules of `Threads.v` cover the code. Locks that are only ever taken
for reading (of the tree, the blocks, the entries of the cache, `ffi.rs`) exclude nothing and are in neither model. Calls that wait
for each other, which only locks bring about, are the subject of C60.
A `_refuted` theorem about interleaved calls shows a run of the model with locks.

## 3. What is not modelled

- The hypercore crate. Assumed: `append` adds exactly the given bytes at the end, or fails (with or without effect); `get` returns
  what was appended, or fails, or reports the block missing; `info().length` is the number of blocks. `EHypercore` stands for every
  error of that crate (`HyperbeeError::HypercoreError` and `CoreMethodsError` are merged).
- How replication works (`add_stream`, the replicator crate): `Replica.v` has what it may do to the core of a reader, namely that
  the core comes to know of more of the writer's blocks, and that which of these it holds changes in any way (fetched in any order,
  dropped again), at any time. That the blocks it receives are the
  writer's is the business of hypercore, which checks signatures. The feature `clone`, `from_storage_dir` / `from_ram` / `HyperbeeBuilder` beyond opening a handle on a
  core, tracing output, `Debug` and `Display` of types other than errors.
- Locks in `height` and `print` (their programs are in `Model.v` only).
- Scheduling finer than the model's commands (pure code between two commands is atomic), fairness of the executor, the wake-up
  contract of inner futures (a pending future wakes its task).
- Compare-and-swap callbacks are pure functions (`FnOnce` in the code: they can be called at most once and may have side effects).
- The code uniffi generates, allocation failure, 32-bit platforms (lengths and sequence
  numbers below 2^64; histories shorter than 2^50).
- In `Cffi.v`: a callback that itself calls into the library, calls from several C threads at once (a C call is atomic), and
  aliasing rules (`from_c` makes a second `Box` of the same `Hyperbee` for every get under way, which stricter readings of
  Rust's rules for `Box` forbid). A null key is undefined behaviour even with length 0 (`slice::from_raw_parts`).

## 4. Trusted base

- The Coq kernel (8.16.1, with its VM for `vm_compute`), the OCaml runtime.
- `Print Assumptions` follows every theorem of `Properties.v` and prints `Closed under the global context` for each of them: no
  axiom is used, neither of this development nor of any library. (A listing of the whole *library* context, as `coqchk` gives it,
  also names the seven `Coq.ssr.ssrunder.Under_rel.*` parameters of the standard library's ssreflect plugin, which is loaded
  through std++ but which no theorem depends on.)
- That the definitions of section 1 say what the Rust code does: read `Bytes.v`, `Codec.v`, `Model.v`, `Poll.v`, `Ffi.v`,
  `Cffi.v`, `Client.v`, `Subs.v`, `Threads.v`, `Count.v`, `Locks.v`, `Replica.v`. They contain no proofs.
- That `Spec.v`, `Wire.v` and `Found.v` say what the English says (section 5).
- No `Axiom`, `Parameter`, `Admitted`, `Variable` outside a section, functor, module type or plugin.

## 5. The specification

`Spec.v` uses data types of the model only (entries, limits, configurations, items, errors). Its main parts:

- `spec_call : call -> store -> reply * store`: the store is a number of blocks and a sorted list of entries; twenty lines.
- `range conf m`: the entries within the bounds, in order or reversed.
- `explains l a rs b`: the replies `rs` to a history `l` are right for a store that is `a` at first and `b` at the end; a call under
  faults either behaves as `spec_call`, or fails with an error that one of the faults explains and leaves the store before, after,
  or before with the header written; a call given up leaves one of the same three, a read that is given up nothing.
- `usable`, `trusted`: a handle is not used after a put whose append failed, a del under a fault, or a write given up, until it is
  opened again (C23 and C45 show why).
- `behaves fuel C b` (`Client.v`): every clean history of calls through fresh handles on the core `C` answers as the store `b`.
- `balanced`, `inorder`, `read_tree`: the B-tree in a core, decoded from its bytes.
- `found C m` (`Found.v`): a core, whoever wrote it, that holds the entries `m`.

`Wire.v` describes the wire format of protocol buffers and the messages of `schema.proto` as relations, without the codec of the
model.

## 6. Proof layers

1. `WireProofs`: decoding a block succeeds exactly on the messages that `Wire.v` describes. `CodecProofs`, `Utf8`: decode (encode x) = x under the u64 bounds; the string check accepts exactly UTF-8.
2. `Order`, `Tree`, `Iter`, `Zip`, `Pure`: ghost trees; searching a node; paths; insertion, splitting, rotation, merging on ghost
   trees step by step as the code does it, with contents, shape and references.
3. `Wp`: rely/guarantee weakest preconditions of programs. `Store`: the meaning of cores and handles. `Read`: what the reading
   programs return under any interference that respects the invariant; used for sequential and concurrent readers alike.
4. `Seq`, `Mut`, `Guard` (del with a check that no node is merged with itself), `MutDel`, `MutTop`, `Commit`: the in-place updates simulate `Pure`; `reorder_nodes` and `add_changes`.
5. `Abs`, `Api`, `Call`, `Det`: from trees to the sorted map; one call, whichever it is; the appended bytes are determined.
6. `Reader`: reading calls step by step, and any number of them at once. `Busy`: a write among them that is a put or asks the core for nothing (`Dry`). Each task's program is checked
   for what it does with nodes and cache (`decent`: it caches only what it decoded into nodes of its own); the put is under
   interference until it begins to write (`uwp`), and from then on touches no shared state (`quiet`), so that it runs as alone but
   for nodes that others allocate (`js` in `rwp`). `Hist`, `Play`, `Main`: histories; the sequential properties.
7. `Conc` (readers beside readers and writers), `Raw` (arbitrary cores), `Count`/`CountProofs` (number of reads), `Shape`, `Hand`,
   `Sub`, `PrintProofs`, `PollProofs`, `FfiProofs`, `CffiProofs`, `CffiNeeds`, `Opaque`, `Truth`, `Thin` (facts about all programs on all cores), `Flow` (reads beside a write), `Scan` (reads of a stream), `Foreign` (cores that others wrote), `LockProofs` (which lock is asked for while which are held; who waits for whom), `Alone` (a call alone), `Apart` (calls on different handles), `ReplicaProofs` (readers of a replica), `Refute`, `LockCases` (witnesses).
8. `Properties.v`: the theorems only, each closed by `exact` and followed by `Print Assumptions` and an example that meets its
   hypotheses (`Demo.v`: a history of 43 events with splits, rotations, merges, faults, dropped calls).

## 7. Plan and status per property

All are expressible in the model; none is "not applicable".

| id | how | status |
|---|---|---|
| C01 C24 | refinement of the whole API to `Spec.v` by induction over histories with several handles, reopening, reads given up | proved |
| C02-C06 | one-call refinement, stated with `get` before and after | proved |
| C07 C08 | the core is unchanged or extended by one block, whose contents are given | proved |
| C09 C10 C39 | invariant on the tree of every version; emptied trees | proved |
| C11 | no outcome of any history, faulty or not, is a panic or a loop; no clean stream panics | proved |
| C12 C13 | traversal by induction on the tree; the range, and its reverse | proved |
| C14 | refuted (8.1); right for all reverse traversals, exact result for the others | partial |
| C15 | refuted (8.2); exactly what is accepted, and which bounds are refused wrongly | partial |
| C16 C17 | calls through subs are calls with longer keys; separation and injectivity | proved |
| C18 | refuted (8.3); right for every prefix, separator, configuration outside three exact exceptions | partial |
| C19 | codec round trips | proved |
| C20 C21 | the invariant holds of every prefix of the core with fresh handles | proved |
| C22 C30 | every fault list, every crash point; which errors; what a stream loses | proved |
| C23 | refuted (8.4); holds for a put unless an append fails, and for writes that store nothing | partial |
| C25 C26 | rely/guarantee proof lifted to arbitrary schedules; every task ends | proved |
| C27 C28 C29 | refuted with concrete schedules (8.5) | partial |
| C31-C34 | from the one-call theorem and the layout of blocks | proved |
| C35 | refuted (8.6); on every sane core, whatever its keys, reads answer; all cores the library writes are sane | partial |
| C36 | refuted (8.7); a key with a value gets one callback | partial |
| C37 | the wrappers lose nothing | proved |
| C38 | simulation between the poll machine, under any pattern of pending, and `trav` | proved |
| C40 | order lemmas | proved |
| C41 | height, logarithmic in the number of entries a stream shows, and printout, with the loop of `print` running between the items of the stream; with storage faults, too | proved |
| C42 C43 | commands of a run counted: blocks read by a call, by a handle over its life; an invariant at every step of a run for calls that are given up | proved |
| C44 | calls given up are events of histories; a step-by-step ownership argument for overlapping reads | proved |
| C45 | refuted (8.4); the handle works once opened again | partial |
| C46 | refuted for del (8.8); proved for put, and for every call that finds what it needs in the cache: `Busy.v`, `Dry.v` | partial |
| C47 | `Wire.v`, `WireProofs.v`, `Own.v`: decoding characterised by an independent description of the format | proved |
| C48 | refuted with concrete schedules (8.9); one write after the other: C24, C26 | partial |
| C49 | `Own.v`: length of an encoded block from the layout of C32 | proved |
| C50 | `Opaque.v`: every program is built from a few primitives; blocks are read through `decode_block` only; simulation over steps, tasks and histories | proved |
| C51 | `CffiProofs.v`: an invariant that ties what the program has noted down to what is allocated and which tasks run; the tasks of all gets are simulated by reads in the sense of C44 | proved |
| C52 | refuted (8.10); C51 requires that no get is under way | partial |
| C53 | refuted (8.5) | partial |
| C54 | `Truth.v`: what a program has come to know of blocks and nodes is followed through its commands, and stays so whatever the others do; `Thin.v`: what a program may append, and that changes keep their key and value on the way | proved |
| C55 | `Flow.v`: a logic of programs that follows which nodes are known to hold only current entries; the writer may also rely on what it has seen in nodes, readers may not; lifted to any schedule with one writer | proved |
| C56 | `Scan.v`: by height; a subtree wholly in range costs at most four reads per entry, and on each level at most two nodes lie across an end of the range | proved |
| C57 | `CffiNeeds.v`: the invariant of C51 read the other way: what is not noted down is not allocated | proved |
| C58 | `Foreign.v`: the invariant of histories speaks of what the core held at first (`Base` in `Api.v`) and of what the library added; a tree decoded from the bytes meets it | proved |
| C59 | `Fuel.v`: induction over the bound, for every program and any state | proved |
| C60 | refuted (8.11); `LockProofs.v`: an order of locks that every function but three keeps; when all wait, one of the three waits for itself; gets and puts, and reads, always come to an end (each step is one in a well-founded tree) | partial |
| C61 | `LockProofs.v`: simulation, one command of the lock model by none or one of `Threads.v` | proved |
| C62 | `Guard.v`: del with a check that no node is merged with itself, which the proofs about del show to be idle; `Alone.v`: every lock is then asked for when the call itself does not hold it; `Apart.v`: so do calls that have their handles for themselves, a del beside readers by the invariant that its checked run from here on does not panic | proved |
| C63 | `ReplicaProofs.v`: the rely/guarantee proof of readers (`Reader.v`) with a core that jumps ahead; a block that has not arrived is a read that finds nothing, foretold from the rest of the schedule | proved |

## 8. Where the code and the properties disagree

Each is a theorem `..._refuted` with a witness that `vm_compute` checks.

1. C14. `in_bounds` stops at the first test that decides, so a forward traversal with an included lower bound that the upper bound
   excludes (equal bounds, or crossed ones) reports the lower bound itself. Only configurations built by hand reach this.
2. C15. `TraverseConfigBuilder` refuses an infinite bound that is given explicitly beside another, and accepts a lone lower bound
   of plus infinity.
3. C18. A sub's traversal uses as upper bound the prefix with its last byte incremented (with a zero byte added if that is 255 or
   there is none), and the prefix without the
   separator as lower bound: a prefix ending in 255 and the empty prefix hide all entries, foreign keys that start with the prefix
   are reported with bytes cut off, short ones make the stream panic.
4. C23, C45. put inserts into the cached leaf and del removes from it before the block is appended; if the append fails, or del
   cannot read a sibling, or the future is dropped, the cache keeps the change. Later calls through the handle fail with
   `NoBlockAtSeq`, or, after a del, the next successful put through it writes the removal for everybody.
5. C27, C28, C29, C53. Nothing excludes two writers, or a writer and a reader, on one handle: puts are lost, a get misses a key that is
   there, a stream skips or fails. Worse, `get` searches a node, gives back its lock and then reads at the index it has remembered
   (tree.rs:95-100): a put that waits for the leaf's lock and inserts a smaller key in between makes it answer with the value of
   another key (`C28_other_key_refuted`). In the same way a del, which waits for the length of the core after its search
   (del.rs:438), removes another key than its own, for good (C53). What remains true beside one writer, and after a write that
   was given up, is C55: whatever entry is shown is current, or the one being put.
6. C35. A hostile core makes get panic (children missing, index out of range, no node in the root block) or loop for ever (a node
   that is its own descendant).
7. C36. `hb_get` has `todo!()` for an absent key, a key without a value and errors: the task panics and the callback never comes.
8. C46. `Blocks::get` looks in the cache, fetches, and inserts, without excluding others in between. A get and a del that both miss
   the root block of a newly opened handle each decode a copy. If the get's insert comes while the del waits for other blocks, the
   del, which has changed its own copy of a leaf, finds the other copy when `repair` looks the leaf up again. The del reports
   success, but the key is still there for everybody; or, when the key was in an inner node, another key is stored twice. A del whose
   handle holds all blocks it needs is safe (`C46_cached_partial`): what is in a cache is never replaced.
9. C48. A put reads the length of the core, which becomes its sequence number, long before it appends. If another handle appends in
   between, the block lands at another place than its references say. Both calls are answered, and one key, or an entry that was
   there before, is lost. Two first puts can each find the core empty and append a header; if both are then given up, the second
   header is taken for a root and every later call fails with `DecodeError`.
10. C52. The task that `hb_get` spawns keeps a plain pointer to the `Hyperbee`. `close_hyperbee` frees it without regard for such
   tasks, and the task then reads freed memory. Waiting for the callback is no way out, since a get of an absent key never calls
   back (8.7): only closing the runtime first is safe.
11. C60. `get_n_keys_and_children` (traverse.rs:289-295) is one expression, in which the guard of `node.read()` for the number of keys
   lives until the number of children has been asked for with a second `node.read()`. If a put or a del asks for `node.write()` in
   between, it waits for the first guard, the second read waits for it (tokio's locks are fair), and neither ever goes on. A stream
   that is not polled keeps the guard of a node while its read of a block is under way (`next_key` and the like are fields of
   `Traverse`), so a consumer that puts before it polls again waits for ever when the put needs that node. In `maybe_merge`
   (del.rs:275-278) both guards of the left and of the right child live in one statement: on a core that has one node as both, del
   waits for itself. Two statements instead of one would do in the first and the last case. (C62: on cores that the library wrote the last
   case does not arise.) With more than one del at a time on
   a handle (which C27 forbids for other reasons) nothing is shown.

## 9. Tests against wrong programs

`seeded/LOG.jsonl` has one line for each edit made to the model in a scratch copy: the definition, the edit, the claim it should
break, the theorems that failed, those that were tightened because they did not fail, and how it was tested (`method`):

- *Instances evaluated.* The model is edited and closed instances of the statements (the stores, histories and schedules of the
  examples and some more) are evaluated in it. A theorem is listed when an instance of it is false, so its statement is false of
  the edited model. Theorems of one family are evaluated together and listed together unless told apart: C14 forward and reverse,
  C22 and C30, C05 and C06, the two of C16, the two headers of C47, those of C34.
- *Proofs rebuilt.* All proofs are rebuilt in the edited model; a lemma whose script fails is left unproved there, so that the build
  goes on, and the theorems that depend on such a lemma are listed. A script that fails does not show by itself that the statement
  is false. This is used for edits that no evaluated instance shows, and for the models of locks, of the C interface and of the
  consumers of streams.
- *The proofs of one file rebuilt* (`rep_*`): the model of the replica has only `ReplicaProofs.v` above it.

Controls (`claim` begins with `none (control`): edits that should break nothing. `lk_order` breaks nothing. `ctrl_le`, `emptyhit`,
`ctrl_once` and `rep_writable` leave all evaluated instances true, but the scripts that walk through the edited program fail and
would have to be written again; the theorems listed for them are those whose proofs this concerns. `nocache` was meant as a
control and is not one. Repairs (`none (repairs`): edits that mend a fault of the code; the `_refuted` theorems fail, and so do those partial ones that
say what the code does instead.

Edits that survived at first and led to stronger statements have `theorems_tightened`; for `rep_lost` it was the other way round,
the edit showed that a hypothesis was not needed. `eager` (a stream reads all children and keys of a node first) makes proofs fail,
but C56 was not shown false of it: its bound counts nodes and leaves room for reading a whole node at once.
