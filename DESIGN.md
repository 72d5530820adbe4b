# Formal model of gnuradio4 core: design

Source: `/repo` (read as text, never built). Model and proofs: `rocq/theories`, Coq 8.16.1.

## Trusted base

* Coq's kernel (including its `vm_compute` conversion).
* What `Print Assumptions` lists for each theorem; it is printed under every theorem in the `*Props.v`
  files during the build. Section "Assumptions" at the end of this file records the result.
* The transcription: every definition of a `*Model.v` file cites the file and lines it models and says
  where it simplifies. A transcription error is outside what the proofs can detect; the seeded-bug log
  (`seeded/LOG.jsonl`) checks that the theorems react to wrong transcriptions.
* No axiom, parameter, functor, module type, plugin or disabled kernel check is used.

## File layout

* `XModel.v`: the code, function by function, as total computable Gallina functions.
* `XSpec.v` or the top of `XProps.v`: the small independent specification.
* `XProofs.v`: invariants and lemmas.
* `XProps.v`: only property theorems, each with a concrete example meeting its hypotheses and
  `Print Assumptions`.

## Conventions

* `std::size_t` cursors are unbounded `Z` when they are only incremented (2^64 samples are out of reach);
  every *subtraction* of cursors is modelled with explicit wrap-around modulo 2^64, because the code
  relies on it. Where a value is stored in 8/16/32 bits the truncation is explicit.
* Undefined behaviour, violated `assert`s and out-of-bounds accesses are a distinct outcome (`None` or an
  error constructor); theorems show they are not reached by clients that respect the stated contract.
* Concurrency: interleaving of atomic steps under sequential consistency. A schedule is an arbitrary list
  of actions; theorems hold for all schedules. Weak-memory effects (acquire/release) are not modelled.
* If the faithful model falsifies a property, the file proves a theorem whose name ends in `_refuted`
  (a concrete execution violating the property), and, where one exists, the strongest positive statement.
  The MANIFEST marks the property `proved` when the property as written is proved, `partial` when only the
  positive part or the refutation is available.

## Properties

| id | modelled | method |
|----|----------|--------|
| C01 C02 C03 C04 C05 C08 | `CircularBuffer` writer/reader/span objects with `SingleProducerStrategy`, linear and double-mapped memory (`RingModel`) | refinement to a list-based stream spec, simulation relation preserved by every operation |
| C06 C07 | index and page arithmetic | direct arithmetic proof |
| C09 C10 C11 | same model, plus a second writer object, reader removal, slot recycling | positive theorem for the safe case, `_refuted` witness for the general case |
| C12 | step-level interleaving of one producer and any readers | inductive invariant over schedules |
| C13 C14 C15 | step-level interleaving of `MultiProducerStrategy` | inductive invariant over schedules, quiescence lemma |
| C16 | attach steps of `addSequences` interleaved with the writer | `_refuted` witness, positive theorem when the writer is quiet |
| C17 | copy-on-write list with compare-and-set | invariant over schedules |
| C18 C19 C20 C21 | `HistoryBuffer` with both halves and dirty count | refinement to bounded list; `_refuted` witness for C20 |
| C22 C23 | `AtomicBitset` words | per-bit characterisation, invariant over schedules |
| C24 C25 C26 | `StateMachine::changeStateTo` with hook outcomes | invariant over request sequences; `_refuted` witness for C26 |
| C27 C28 C29 | CRC register update, tables, slice-by-8 | XOR-linearity, induction over bytes |
| C30 C31 C32 | `WireStream` writer and reader over byte lists | round-trip, bounds and prefix lemmas |
| C33 | `WireFormat` accessors and annotations | round-trip over byte lists |
| C34 C35 | `ReaderWriterLock` compare-and-exchange steps | invariant over schedules |
| C36 C37 | `BasicTriggerNameCtxMatcher` on strings | decision characterisation, `_refuted` witnesses |
| C38 C39 | `ChunkPool`, `ChunkBuffer` | conservation invariant over histories |
| C40 | `StaticArenaResource::do_allocate` | invariant over request sequences |
| C41 C42 C43 C46 | `ValueMap` entry table, byte pool, in-pool free list | representation invariant, refinement to association list; `_refuted` witnesses for C43, C46 |
| C44 C45 C52 | `blob`, `_validateBlob`, `from_blob`, decoding (`BlobModel`) | image lemma, bounds theorem over arbitrary memory; `_refuted` for nested maps and hostile bytes |
| C53-C62 | `Block::work`: sample limits, resampling, stride, tag propagation, end of stream, SIMD loop (`WorkModel`) | invariant over all event sequences against a chunk-by-chunk reference; grid invariant for strides; `_refuted` for stalls, lost and repeated tags, strides with tags |
| C63-C67 | decompressors (`CompModel`) | soundness and completeness against the RFC formats (`CompSpec`), totality on hostile bytes |
| C68-C70 | compressor | token, code length, canonical code and writer lemmas composed into `Encodes`; the decoder theorems then give the round trip |
| C71-C76 | `StreamDecompressor` (`StreamModel`) | simulation of the whole-buffer decoder step by step over arbitrary cuts, decreasing measure per step; `_refuted` witnesses for sticky errors |
| C77-C80 | `StreamCompressor` (`StreamEncModel`) | per-block invariant linking encoder state and queued bytes to the bit stream specification; loop invariant over a session with a decreasing measure; `_refuted` witnesses for the status |
| C81-C88 | `convert_safely`, `trimAndCutComment`, `parseToMinimalNumeric` (`ConvModel`) | case analysis over types with range lemmas; rounding lemma over the rationals (nearest number of the format); text grammar both ways; `_refuted` witnesses |
| C89 C90 | `convertTo`: policies, tensor to vector and array | elementwise lemmas; `_refuted` witnesses |
| C91-C93 | job lists of the Simple, breadth-first and depth-first schedulers (`TopoModel`) | round-robin lemma; loop invariants of the searches (layers; white-path argument with exhausted blocks); any hash order |
| C94 | `weaklyConnectedComponents` | invariant of the labelling loop; refinement to connectivity |
| C95 | `detectFeedbackLoops` | invariant of the three-colour search with finishing order |
| C96 | `calculateLoopPrimingSize` | product and maximum lemmas; `_refuted` witnesses |
| C97 | `flatten`, `forEachBlock` | induction on nesting |
| C98 C99 | connecting and priming at start and resume (`PrimeModel`) | invariant over the groups visited; `_refuted` witnesses |
| C100 | port definitions (`EditModel`) | decimal text round trip; distinct names |
| C101 C102 | grouping blocks (`EditModel`) | invariant of the planned exports; permutation of the wires between physical ports |
| C103 C104 | ungrouping (`EditModel`) | lookup in a sound list of exports; round trip with C101 |
| C105 C106 | removing, replacing, exporting (`EditModel`) | permutation of blocks, edge by edge relation |
| C107-C111 | ports, buffers and edges while connecting (`LinkModel`) | invariant over histories (who reads which buffer) with a frame lemma per step; maximum over the edges of an output |
| C112 | one work call (`WorkModel`) | case analysis of the call; induction over refused calls |
| C113-C122 | settings of a block (`SettModel`) | refinement of the stored entries to a complete log; invariants over histories of user operations; interleaving model for staging and applying |
| C123-C131 | YAML text of maps of values (`YamlModel`) | text as lines; nested induction over values with a loop lemma for maps and lists; termination measure for the parser; invariant over all parses |
| C132-C145 | scheduler at run time: quiescence, worker loop, who runs which block, zombies, adoption, messages (`SchedModel`) | transition systems; one invariant over all histories for the lists, one per fate of a block (away, lost, waiting, wired, published); counting for the loop |
| C146-C153 | thread pool: task queue, submitting threads, workers, growing, shrinking, shutdown, default sizes, affinity (`PoolModel`) | transition system, one step per access of a shared variable; counting invariant over all interleavings; ranks for liveness |
| C154-C161 | message interface of a block: dispatch, the twelve standard properties, replies, subscriptions, notifications (`MsgModel`, on `SettModel` and `LifecycleModel`) | functions over whole sequences of messages and rounds; induction over the messages, the rounds and the history |
| C162-C168 | the selector block: mapping, plain and synchronised routing, monitor, select port (`SelModel`) | calls as functions of spans and room; induction over groups, rounds and calls; a decreasing measure for the levelling loop |
| C169-C174 | the synchronising block: common times, aligned blocks, history, reports of dropped samples (`SyncModel`) | calls as functions of spans and room; one shape lemma for every call; induction over the run for the accounting |
| C175-C178 | ranges cut out of a stream, data sets as output (`WinModel`, `WinMatch` links the filter of `TriggerModel`) | calls as functions of tags, samples and room; an invariant that relates every open data set to a slice of the consumed stream |
| C180-C182 | ranges cut out of a stream, a stream as output (`WinModel`) | refinement of a per-sample machine; its event step is idempotent, which absorbs calls that consume nothing |
| C183-C190 | pollers, callbacks and listeners of the data sinks (`SinkModel`) | account of every call by an inductive relation, invariant over interleavings; refinement of windows, ranges and snapshots to the concatenated stream |
| C191 | registry of the sinks by signal name (`SinkRegModel`) | invariant: the map is exactly the registered sinks |
| C192-C198 | tensors and views (`TensorModel`) | index tuples enumerated in order; iteration equals the map of the cell function over them, by induction over the dimensions |
| C199-C202 | merged blocks (`MergeModel`) | machines run over whole streams; a graph is a set of equations between ports, shown to have the merged block's values as its one solution by induction over the nesting |
| C203-C206 | Schmitt trigger and its block (`SchmittModel`) | sides of the newest decisive sample; invariant of the zone; one call then all sequences of calls by induction |
| C207-C210 | saving and loading graphs (`GrcModel`) | loader inverts the writer per block and per edge; lookup characterised as last block of the name; acceptance as equivalence |
| C211-C214 | lines of GPS receivers (`NmeaModel`) | cancellation of exclusive or; split as inverse of join; one line as a function of pending fix, second and date, then induction from the end |
| C215-C218 | envelope of bursts (`TaperModel`) | the loop refined to one sample at a time; the place on the ramp of the last gain as invariant; samples left as measure |
| C219-C221 | clock source and its tags (`TickModel`) | invariant: the next tag of each list is not behind; lateness bounded by the number of tags before |
| C222-C223 | samples due by the clock (`WallModel`) | invariant between total and time accounted for, by induction over the calls |
| C224-C227 | generator of random numbers (`RngModel`) | injectivity of shifted exclusive or, odd factors and rotation, induction over the draws |
| C179 | integers of the YAML reader (`YamlModel`) | equivalence by induction over the digits |
| C47 | `ValueMapView` bounded mutators | invariant, refusal leaves contents |
| C48 | aligned allocation arithmetic | direct proof |
| C49 | `updateMaps` | map lemma |
| C50 | `Aligned<T>::allocate` | arithmetic, `_refuted` witness |

## Findings

Each is a theorem ending in `_refuted` (a concrete execution of the model, checked by computation).

* C09: a second writer object on a buffer that carries data rewinds the publish cursor when it releases an empty span.
* C10: after the last reader leaves, `available()` of the writer is close to 2^64 once more than one capacity was published.
* C11: recycling of `Clearable` element types wipes unread elements when the stream is more than a capacity past the watermark.
* C16: `Reader` construction loads the publish cursor before it bumps the reader-list generation. If the writer publishes
  more than a capacity in between (it still uses its cached list), the new reader starts more than a capacity behind, the
  free-space computation wraps, and the writer overwrites elements that other readers have not consumed.
* C20: `HistoryBuffer::operator[]`, `at`, `front`, `back` hand out references; an assignment reaches only one half of the
  mirrored storage. Iteration and spans then show the old value, or show the new value and later the old one again.
* C24: `REQUESTED_PAUSE -> REQUESTED_STOP` is refused although documented.
* C26: concurrent state requests interleave between check and store.
* C30: a payload of 4 GiB or more is written whole but its size field holds the size modulo 2^32, so it cannot be read
  back (C30_4GiB_payload_lost).
* C31/C32 (not refutations, limits of the format): a stream cut on a frame boundary is not reported; without the CRC flag
  damage in a payload is not detected; `next()` after a refused `begin()` reads on from the start of the data.
* C36: a single filter compares contexts the wrong way round: the filter's context must contain the tag's context. A tag
  without a context matches every filter that names one; `alarm/room` does not match a tag with context `room1`. Pair
  filters compare the right way. The texts `[]`, `,` and `[,]` match every tag although the empty text matches none.
  A lone stop side (`,^b`) loses its marks. The tag that ends a marked start is not tested against the stop side.
* C37: a malformed filter throws only on the first call. The second call with the same text answers Ignore, or acts as the
  start side alone when that side was well formed.

* C39: `storeBlob` for element 1 and then for element 0, with a chunk switch in between, seals the chunk with the lower
  position; housekeeping frees it before element 1 is published. With no reader attached `min_reader_position` is 0, so
  nothing is reclaimed and a pool with a maximum refuses payloads for good.

* C40: a zero-byte request to the arena ignores the alignment.
* C50: `Aligned<T>::allocate(n)` multiplies without an overflow check; a huge n is answered with a small block.

* C41: the entry counter and the capacity field of a property map have 16 bits. The 65536th insertion succeeds and empties the
  map. A table that grew to 65536 or more slots has a wrapped capacity; inserting a key of more than 34 bytes then reallocates
  with room for the present entries only and writes the new entry over the pool. `emplace(newKey, value)` with a value of the
  same map reads released memory when the table grows. A string with a zero byte is read back shortened.
* C43: `merge` copies a record with its unpadded length but the record header and later frees use the padded one. Erasing a
  merged key frees bytes of its neighbour; the last record can end behind the blob.
* C46/C49: assigning the empty value to an existing key reports success and keeps the old value.
* C51: the bytes of an erased long key are reused for a value record, at any offset.
* C44: `from_blob` rejects the bytes of every map that contains a nested map (AlignmentViolation): the nested blob starts 8
  bytes behind a 16 byte aligned record. (C44_refuted holds for all such maps built without long keys.)
* C45: an accepted blob can still make the decoder read 8 bytes behind it (a scalar record without content), write a tensor of
  elementCount elements into storage for the product of the extents, and make an insertion write behind the storage
  (entryCapacity is not validated).
* C52: a blob of 32 + 144 k bytes can take 2^k steps to validate (k up to 31), because entries may share a nested map.
* C54: a 1:1 block whose output port asks for at least m samples stops for good when a tag is less than m samples ahead: the
  tag limits the call to fewer than m samples, the call is refused, and the tag is never reached.  The same happens with chunks of
  4, input `min_samples` 10 and a tag 10 samples ahead (two chunks are 8 samples, three do not fit).
* C56: tags of a call that consumes input but publishes nothing are lost (`finaliseIO` drops them, the input span consumes them); a call
  that publishes without consuming forwards the tags of the waiting sample every time; a strided block drops a tag on the first skipped sample.
* C58: a tag inside the gap of a strided block makes it read a chunk at the tag; all later chunks are shifted.
* C59: with chunk sizes 1 and a stride, all available samples are processed but only `stride` of them consumed, so the output depends on
  the schedule.
* C60: with input `min_samples` > 1 a tag nearer than that does not limit the call; it is applied and forwarded at the start of a later
  call, any number of samples late.
* C62: duplicates of the same tag on several inputs are recognised among the first eight only.
* C65: `decompressedSize` says it returns the size "after validating the stream"; it does not look at the check values, so it gives a size
  for a stream which `decompress` refuses (C65_size_validates_refuted).
* C76: errors of `StreamDecompressor` are not sticky. After `invalidHeader` for one wrong byte a gzip stream decodes as if nothing had happened;
  after `invalidBlockType` raw data is decoded as a new block; after `trailingData` an empty call reports `done`.
* C80: `StreamCompressor` returns `needInput` when its output has been filled exactly: with a gzip header and 10 bytes of room nothing of the offered
  input is consumed; with room for exactly the whole stream the finishing call has delivered everything and still asks for input. The documentation says to act on
  the status rather than on `consumed` and `produced`. After `trailingData` an empty call reports `done`.

* C81: `convert_safely` from uint64 checks the range after a cast to int64. A number of at least 2^63 becomes negative and is accepted for every signed
  target whose range then contains it: 2^64 - 1 converts to -1.
* C82: the uint64 value 0 does not convert to float or double (`min()` of the wide type is 0 and is refused as "cannot handle integer min()").
* C83: the upper bound is cast to the floating-point type and rounds up, so float 2^31 to int32, float 2^32 to uint32, double 2^63 to int64 and
  double 2^64 to uint64 pass the check and reach an undefined cast.
* C85/C88: the inner calls for the parts of a complex number, and for a text with a decimal point, pass a `std::variant`, for which there is no overload.
  No complex number converts to another type, no such text is parsed.
* C87: a text held by a `Value` reaches the conversion as `std::string_view`; only `std::string` is handled. It converts to nothing.
* C89: the "Widening" policy admits int32 to float and int64 to double, which change the number; "Narrowing" runs undefined casts.
* C90: a tensor of values holding int8 does not convert to double under Widening, the tensor of int8 does.
* C92: the breadth-first and depth-first schedulers start from `findSourceBlocks`, which only knows blocks with an outgoing edge and none entering.  A block without edges, or a loop without a source feeding it, is never on a job list, so its work is never called.
* C92, C97: `flatten` skips the blocks of scheduled groups but not their edges, so the outer breadth-first and depth-first schedulers also put an inner scheduler's blocks on their lists: two schedulers run the same block.
* C95: a loop that shares its closing edge with one already found is not reported; its rates are not checked and its needs not counted when priming.
* C96: the 32-bit products of numerators and denominators wrap, so an unstable loop can pass.  The size is the maximum of the needs, which starves loops with chunks 2 and 3, or 4:1 followed by 4:16.  The minimum of a port behind a port collection is looked up at the wrong place.
* C98: `resume()` calls `connectPendingEdges()`, which primes all loops of connected edges again; loops in a group twice.  A start with a loop inside a transparent group reports a spurious error, as the flattened graph is primed before the group's edges are connected.  Priming samples go into the buffer of the output port, so other readers of the port see them too.
* C99: `result && ..` in `connectPendingEdges` skips the edges of all groups visited after the first failure.
* C100: `std::from_chars` in `dynamicPortFromName` is not checked to have read the whole text, so `in#1x` selects element 1 of `in`.
* C101: grouping gives an export the name of the inner port plus block name; for an element of a collection this contains `#`, and `dynamicPortFromName` then looks for a collection of that name, so the new outer edge does not resolve.  Memory resources and the other fields of a crossing edge that `connect` does not take are lost.
* C102: a crossing edge whose inner port name does not exist is found only when exporting, after the blocks and edges have been taken out of the graph; the error return leaves them lost.
* C103: with two exports of the same name ungrouping joins the outer edges of one to the other's port.
* C104: the edges that crossed the border come back defined by port name even if they were given by index, so a later `removeEdge`, `containsEdge` or `hasSameSourcePort` with the index no longer matches (see C107).
* C105: `replaceBlock` uses an iterator found before `addBlock`, invalid if the vector grew; `_blocks.reserve(100)` hides this up to 99 blocks.
* C106: `exportPort` accepts a name twice; withdrawing removes the first port of that name, whichever it is.
* C107: `hasSameSourcePort` compares how the port is written, not the port.  `connect<"out","in">` writes indexes, `emplaceEdge` and ungrouping write names, a group writes the exported name.  If an output is fanned out under two spellings, the edge connected second takes it for unconnected, gives the port a new buffer and leaves the readers of the first edge on the old one, while that edge stays Connected.  So emplacing an edge on a used output and then pausing and resuming, or grouping or ungrouping part of a fan-out in a running graph, silently cuts connections.  A second edge into an input takes it over; the first stays Connected, `Overridden` is never set.  `replaceBlock` moves the edges over with state Connected, so the new block is never connected.
* C109: an edge that joins an output already connected gets the existing buffer, however large its `minBufferSize`.
* C110: `removeEdgeBySourcePort` leaves the output with a placeholder of size zero; a synchronous port of zero room stops its block, with all its other outputs, until edges are connected again.
* C111: `removeEdgeBySourcePort` fails with "port not connected" for an edge still waiting; an edge given by index that is still waiting survives the removal.
* C112: `sanitiseProcessStatus` zeroes the local counts only.  A processBulk function that has called `consume` and then returns ERROR (or INSUFFICIENT_...) loses these samples and their tags although the call reports no work.  The tags in the window of a refused call stay unread and act on the settings again at each further call.
* C113: two sets for the same context and time: the newer entry is inserted before the older one (`lower_bound`) and the next purge keeps the last, hence the older one.
* C114: `activateContext` compares only the context found with the active one, so values set for the time of the active entry are never staged, although `set` and `activateContext` succeed.  Switching to another context inserts its values into the staged ones without overwriting: pending values win (values forwarded at `init` are pending until the first application).
* C115: `set` purges the active entry and with it the record of which names were explicit.  Until the new entry is activated, a tag overwrites explicit values (`autoUpdate` recreates the record with all writable names).
* C116: `autoUpdateImpl` compares the tag with the active value, not with the staged one: tags 6, 5 before one application of a member with value 5 leave 6.
* C117: `resetDefaults` activates the defaults as a stored entry; names left to tags are skipped there, so values that came from tags stay.
* C118: `applyStagedImpl` adds a value to the forwarded ones before it is validated; a rejected value is published downstream.
* C119: `applyStagedParameters` clears the staged values and the changed flag after its lock is released; `applyChangedSettings` clears the flag again.  A value staged in between is wiped out, or stays staged with the flag cleared until something else sets it.
* C120: `removeContext` without a time takes the present time, which matches no entry.  It leaves `_autoUpdateParameters` of the removed entry behind.
* C121: after `remove_if` the elements behind the new end are moved-from; erasing the auto-update record by their context erases that of the kept entry of the default context (empty name), after which activation treats all names as left to tags and stages nothing.  `time + expiry_time` overflows for large expiry times.
* C122: `findBestMatchCtx` has no bound on the attempts; a rule that always answers `false` loops for ever.
* C124: block strings are not escaped on writing (`escapeForQuotedString = false`), but `\0`, `\x..` and `\u` in them are interpreted on reading: `\x41` becomes `A`, `C:\users` followed by a line break cannot be read.  A line of blanks comes back empty.
* C125: a printable key without a colon is written raw: ` b` loses its blank, `#b` vanishes, `a#b` and `-b` cannot be read, `---b` becomes `b`, `"b"` loses its quotes, `[b` as the first key of a nested map and `{b` cannot be read.
* C126: without type tags the string `42` comes back as an int64, the empty string as null, `a # b` as `a`, and `k: true` as an empty map followed by a new entry `k` in the outer map.
* C127: the items of a `Tensor<pmr::string>` are written without quotes and without a tag; they come back as a `Tensor<Value>` of numbers, maps and lists.
* C128: extents are not written.  Floating-point numbers are written with the default precision of the stream, six digits: 1234567 comes back as 1234570.
* C131: the rest of the line after a flow list or map is dropped; `\x4G` is read as byte 4 and the `G` is dropped; `0x-5` is read as -5; `!!null 300` is null.
* C132: the quiescence flag is one bit.  With two threads asking at once, the first release lets the workers in while the other thread still relies on quiescence.
* C134: `process_stream_to_message_ratio` 0 passes the limits of the setting and divides by zero in the second turn of the loop.  Ratio 1 handles messages in every other turn.
* C135: if a scheduler is stopped, initialised and started again between two reads of the state by an old worker, that worker goes on, and `start` waits for it for ever.
* C137, C138: `changeStateTo` returns before the workers have left.  Blocks grouped away, or lists rebuilt, in that time are still worked on.
* C139: a block grouped away before its worker has copied its list leaves an entry behind; when the block comes back to that worker, it is dropped for ever although it stays in the published list.
* C140: a block given (by its hash) to a worker that has left is never run; neither is one accepted between init and start, nor the new block of a replace.
* C141: a block removed while the scheduler is stopped stays in the list of zombies for ever if the scheduler is reset next.
* C142: a graph exchanged between init and start is not run; the old graph's blocks are, though the caller owns that graph by then.
* C143: with no listener on the scheduler's message output, nothing is consumed from the children: after 'capacity' messages their sends spin, and an error among them is thrown again on every turn.
* C144: one child that handles no messages blocks the forwarding of messages to all children, and with it the worker that forwards.
* C145: only `init` connects the message ports of the blocks, `reset` does not: blocks of an exchanged graph, blocks added while stopped, replacements, and all blocks of a scheduler that went from IDLE to STOPPED and was then reset, run unconnected.
* C146: a priority is a `uint32_t` template argument stored in an `int32_t`: from 2^31 on it counts as negative, and the task is served after all others.
* C147: the last worker to leave clears the queue.  With a minimum of 0 (a pool that may go idle completely) a task pushed at that moment is destroyed although `execute` returned.  Shutdown destroys all queued tasks.
* C148: the check against the maximum and the creation are not one step: each further submitting thread can exceed the maximum by one.  `setThreadBounds` with a higher minimum creates no thread.
* C149: each worker waits with a mutex of its own (line 618), so a notification between its look at the counter and its wait is lost; if the pool is full the task waits for the keep-alive timeout (10 s).
* C150: `clear` does not reset `_numTaskedQueued`; after a dropped task it stays above zero for good, and idle workers never block again.
* C151: the shutdown's notification can be lost in the same way.  `requestShutdown` joins the threads and the destructor joins them again: `std::system_error` from a destructor.
* C153: a worker is created with number `threadIdx + 1`, but only the numbers below the minimum own cores: once an affinity mask is set, a new worker of a CPU pool gets an empty mask, which is a fatal error.  `setThreadAffinity` is moreover called without the thread (lines 516, 520), so it binds the calling thread.
* C155: `propertyCallbackSettings` and `propertyCallbackUiConstraints` call the callback of StagedSettings and drop the message it returns, so an accepted Set is never confirmed there, whatever the client identifier.
* C157: a Set with an unknown name is answered by an error after the known names have been staged; the next application of the settings takes them over.
* C158: a successful change of state is not confirmed.
* C159: a "time" that is not an `uint64` counts as 0, i.e. now; "parameters" of another type count as none and the answer reports no failure; Get of a context that does not exist answers with no values.
* C160: when the reply port is full `processMessages` throws; the reader's span is then released with `ProcessNone`, so everything handled before is handled and answered again if the caller goes on.  In a worker thread of the scheduler nothing catches the exception.
* C161: a plain block accepts subscriptions to LifecycleState, MetaInformation and UiConstraints and never notifies them.  `ResetDefaults` applies the defaults inside the settings, so `applyChangedSettings` sees no change and no subscriber is told.
* C164: the interleaving loop of the synchronised selector runs to `nSamplesToConsume[0]` for every output (Selector.hpp:210).  If input 0 is not mapped that is the largest `size_t`; if it has another count, samples of the other groups are lost or read beyond the span.
* C166: `_selectedSrc` is set anew in every call, to "none" without a select sample (Selector.hpp:152); with an empty mapping the select port is not read.
* C168: `settingsChanged` enters a pair into the maps before it checks it; the exception leaves it there.  A change of `n_inputs` alone does not look at the mapping.
* C170: the position of a common time is the first tag *close to the time*, whether or not it passes the filter (SyncBlock.hpp:262).  The comparison with the tolerance is strict, so a tolerance of 0 never synchronises.  The time 2^64-1 is taken for "none".
* C171: the number of dropped samples is cast to 32 bits.
* C173: a call in which an output has no room is treated as one without common samples: what exceeds the history is dropped and the streams count as not synchronised.
* C174: the samples in front of the common trigger are counted from the *first* earlier trigger instead of the last (SyncBlock.hpp:305), so an unmatched trigger is published in an aligned block.
* C176: in the post phase a data set is finished when `nPostSamplesRemain` reaches 0, which it does not if n_max stops the copying; the next call, which copies nothing, finishes it (StreamToDataSet.hpp:344-355).
* C178: `nPostSamplesToCopy` is 0 for an empty span, and 0 means "finished" (StreamToDataSet.hpp:354).  The output port is `Async`, so `workInternal` does not return when there is no input (Block.hpp:2077): whether the samples behind the stop trigger arrive depends on whether the scheduler calls the block between two chunks.
* C182: `AccumulationState::update` ignores a start while `isActive`, but the filter has already moved on to "waiting for the stop" (StreamToDataSet.hpp:90-107, 182-183), so the range behind such a start is lost as a whole.
* C182: a call that returns for want of room has already changed `_filterState` and `_accState` and looks at the same tags again; if the sample carries a start and a stop, the second look takes the stop.
* C182: with a one-sided filter, n_post = 0 and n_pre > 0, `inTagsPublished` is true though no current sample is copied, so the trigger's tag is neither published nor kept (StreamToDataSet.hpp:228-247).  An empty call between two tries publishes the samples in front and ends the range; the trigger, looked at again, publishes them a second time.
* C184: in `ContinuousListener` without backpressure, tags beyond the samples that fit are filtered out before they are counted, so `droppedTagCount` misses them (DataSink.hpp:801-803, 828); a pending description that finds no room is counted at every call and still delivered later.
* C184: `StreamingPoller::process` with a handler that takes no tags consumes all queued tags, those of unread samples too (DataSink.hpp:111-113).
* C185: after the sink stopped, fewer than `minRequiredSamples` remaining samples cannot be fetched by any call of `process`.
* C187: `ensureHistorySize` copies the retained samples newest first with `push_front` (DataSink.hpp:646-650), so growing the history reverses it; a trigger soon after shows its preceding samples in the wrong order.
* C191: `unregisterSink` uses the value form of `std::any_cast<TSink*>`, which throws for a sink of another type; it is called from `stop() noexcept` (DataSink.hpp:190, 607-608).
* C191: `unregisterSink` erases by the present `signal_name`, whoever owns that entry (DataSink.hpp:193): a sink whose name was refused removes the other's entry, and one whose renaming was refused leaves its old entry, a pointer, behind.
* C191: only a change from the empty name registers a sink (DataSink.hpp:532-536), so after a refusal or a stop a new name does not make it reachable.
* C195: `reshape` recomputes the strides without looking at the present ones (Tensor.hpp:707-723), so a transposed or sliced view shows other elements or another order afterwards.
* C196: access with one index takes `_data[k]` (Tensor.hpp:296-298, 572-581, 594-596) and `fill` writes `_data` (Tensor.hpp:625), both regardless of the strides: on a slice, `fill` overwrites elements outside of it and misses some inside.
* C197: `resize_dim` sets the extent before `product` may throw (Tensor.hpp:357-358), and `resize` the rank (Tensor.hpp:375-376): after the exception, extents and memory do not agree and `at` lets indices outside of the memory pass.
* C197: `resize_dim` of a dimension other than the first moves elements to other index tuples (noted in the code, Tensor.hpp:361-362).
* C198: the overflow check looks at the product so far, so extents {max, 2, 0} throw and {0, max, 2} do not (Tensor.hpp:249-258).
* Read, not proved: `resize` and `reshape` copy any number of extents into arrays of kMaxRank entries (Tensor.hpp:377, 721); the constructors check it (e.g. Tensor.hpp:1308).
* Read, not proved (merged blocks): with three or more left outputs and two or more right outputs `processOne` of `MergeByIndex` does not compile (`std::move(std::get<Ks>(right_out)...)`, BlockMerging.hpp:281).
* Read, not proved (merged blocks): `processOne` of a feedback merge passes the whole output on (BlockMerging.hpp:668, 670), so the template arguments ForwardOutputPortIndex and FeedbackOutputPortIndex matter in `graph()` only (BlockMerging.hpp:680-682).
* Read, not proved (merged blocks): the move constructor of a feedback merge leaves the monitor behind (BlockMerging.hpp:637), and `_state` keeps its value over stop and start.
* C203: with threshold 0 a signal constant at the offset gives an edge at every sample; the block constructs its trigger as `_trigger{0, 1}` (Trigger.hpp:64), which is threshold 0 and offset 1 (SchmittTrigger.hpp:67), and passes `offset` and `threshold` on only if one of them is set (Trigger.hpp:76-80), so the documented defaults 0 and 1 are not what it uses (the last part read, not proved).
* C204: with regression or smoothing an edge needs the signal to have come from the lower threshold (SchmittTrigger.hpp:177, 236), so the first edge of a signal that starts between the thresholds is missed; and `lastEdgeIdx` is not updated without an edge (SchmittTrigger.hpp:221), though documented as relative to the current sample (SchmittTrigger.hpp:56).
* C205: basic interpolation extends the line through the last two samples to the offset even if the signal passed it earlier (SchmittTrigger.hpp:137-138).
* C206: the block publishes up to the interpolated position only (Trigger.hpp:132-135), so the samples behind it pass the trigger and `_now` again in the next call; and an edge whose position lies before the span is not reported at all (Trigger.hpp:146).
* Read, not proved (trigger block): the period is 1e6 / sample_rate (Trigger.hpp:70) while `_now` and `trigger_time` are nanoseconds (Trigger.hpp:58, 87); a negative relative offset is converted to an unsigned number (Trigger.hpp:126).
* C207: `saveGraphToMap` writes neither weight nor name of an edge and casts the buffer size to 32 bits (Graph_yaml_importer.hpp:415-423); the loader gives every edge the default weight and name (Graph_yaml_importer.hpp:355, 370).
* C208: connections name blocks by `name()`, which need not be unique; `createdBlocks` keeps the last block of a name (Graph_yaml_importer.hpp:85, 280, 415-418), so edges of the others move to it without an error.
* C209: `serializeBlock` writes no `parameters` for a sub-graph (BlockModel.cpp:96-133) while the loader takes the name from there (Graph_yaml_importer.hpp:102); exported ports are written with three fields, the unique name of the block among them (BlockModel.cpp:112-117), and read as four with the name of the block (Graph_yaml_importer.hpp:135, 151).  The tests save such graphs but do not load the result.
* C210: a negative buffer size is cast to `size_t` (Graph_yaml_importer.hpp:364), -1 then means the default.
* C211: `validateNMEAChecksum` accepts every line without a star (NMEAParser.hpp:124-127), so an error in the star itself switches the check off; `from_chars` may stop after one digit and its end is not compared (NMEAParser.hpp:133-134), though the comment asks for exactly two digits.
* C213: `checkPpsBoundary` compares the seconds of the minute only (NMEAParser.hpp:199-214): after a gap of whole minutes no fix is handed over and the data of both times mix.
* C214: a valid RMC sentence sets `hasTime` without looking at the time, which is 0 if the field is short (NMEAParser.hpp:81-83, 237-244), and takes the date from its own field even if that is empty (NMEAParser.hpp:238), which gives 2000-01-01 although `_lastDate` is known; all years are 20yy (NMEAParser.hpp:98, read, not proved).
* C215, C217: a ramp reversed by force before its first sample stands at its end (BurstTaper.hpp:118-120, 126-128). If the target then changes again without force, `processOne` leaves the ramp and returns 0 although the next ramp begins at full level (BurstTaper.hpp:155-158); `applyTo` does not.
* C219: after a tag on the next sample the clock source publishes one sample (ClockSource.hpp:141, 168); a listed tag on the same sample is then behind, its distance wraps in 32 bits (ClockSource.hpp:132), and it and all listed tags after it are never published. The distance to a time is clamped to 0 (ClockSource.hpp:128), that to a listed tag is not.
* C220: the comparison of the distance with the samples to produce allows equality (ClockSource.hpp:135, 145), so a tag behind the last sample is published.
* C221: `repeat_period >= tag_times.back()` (ClockSource.hpp:120) holds for the default period 0 and the single time 0; the tag is repeated on every sample, one sample per call.
* C222: the time of the samples handed out is cut to the ticks of the clock in every call (BlockingSync.hpp:174-175), so the total runs ahead of the rate by up to one tick per call; noticeable only at high rates and short calls.
* C223: `dropIfBehind` sets the time of the last update even if no sample was due (BlockingSync.hpp:171-172); called more often than once per sample, such a block never produces anything.
* Read, not proved: `getMultiplexedPoller` and `getSnapshotPoller` do not set `finished` when the sink has already stopped (DataSink.hpp:565-580), so such a poller never ends.

## Modelled and not modelled (concurrent buffers)

* `MpmcModel`: `MultiProducerStrategy::tryNext/next/publish`, span writes, reader load/get/read/consume, one action per
  atomic access. Not modelled: readers attaching while producers run, wait strategies, weak memory orders, absolute
  positions beyond 2^62.
* `SpModel`: `SingleProducerStrategy::tryNext/publish` with the generation-cached reader list, reader constructor and
  destructor step by step. Not modelled: `next` (spins on the same test), wait strategies, weak memory orders.
* `RegistryModel`: `addSequences`/`removeSequence` on one list, with spurious failures of the weak exchange.

## Modelled and not modelled (history buffer)

* `HistoryModel`: every public member of `HistoryBuffer` with both halves, capacity, ring size and dirty count. Spans and
  iteration return the values in the contiguous range; the `const_cast` lazy sync is an ordinary state change. Not modelled:
  iterator invalidation, element types whose copy throws, `data()`, `cbegin/rbegin` variants (same range).

## Modelled and not modelled (CRC, wire stream, trigger filter)

* `CrcModel`: register update, table construction, slice-by-8 and the SIMD variant with an arbitrary lane width. Tables are
  functions of the index, bytes are naturals below 256. Not modelled: the compile-time selection between variants.
* `WireModel`: writer, reader cursor, frame and stream headers, record prefix and annotations over byte lists. Not modelled:
  allocation failure, `assert`s, damage in a size field (C32_damage covers the other fields).
* `TriggerModel`: all of `BasicTriggerNameCtxMatcher`; the filter state map is a record, tags are key/value lists with the four
  relevant keys. Not modelled: other matchers of the file, insertion failure of the state map.
* `ChunkModel`: `ChunkPool` and the chunk bookkeeping of `ChunkBuffer` on byte-addressed memory, with both intrusive lists
  stored in the chunks. The upstream resource answers with an arbitrary non-overlapping address. The descriptor ring is
  reduced to positions (its own properties are C01-C05). Operations are atomic (mutex, guard flag). Not modelled: an upstream
  resource that throws, the move/copy of spans, alignment of payloads inside a chunk (they start at offset 24).
* `AllocModel`: `StaticArenaResource`, the size computation of `Aligned<T>::allocate`, `_alignedAllocate/_alignedDeallocate`.
  `std::align` is modelled after the library's implementation. Not modelled: the logging and counting wrappers, `migrate`.
* `ValueMapModel`: the owning `ValueMap` (allocate, makeAt, grow, free list, records, long keys, emplace, insert_or_assign, erase,
  clear, reserve, shrink_to_fit, copy, copy assignment, iteration, lookup, merge) and `updateMaps` of Tag.hpp. Entries are
  decoded records, the pool is bytes. Size computations that would reach 2^32 end in `Limit` and are not modelled further.
  Values are their encoded bytes; encoding of tensors and nested maps, debug fill patterns, `SubscriptProxy`, `at`, comparison
  and the map without a blob (default constructed) are not modelled. `insert_or_assign` from another map by `updateMaps`
  excludes source == destination.
* `BlobModel`: the byte image of a map, `_validateBlob`, `_validateTensorSubBlob`, `from_blob`, and which bytes the decoder touches.
  Bytes are a function from addresses to bytes and a span. A read outside a span, or a sub-span that is not inside its span, is a
  distinct outcome. Error codes are not distinguished; decoded values are not built; the frozen bit is not modelled.
  Maps restored from bytes are among the reachable maps of C41, C42, C46, C47, C49 and C51.

## Modelled and not modelled (work loop)

`WorkModel` follows `Block::work` from `computeSampleLimits` to `finaliseIO` (default, forward and backward tag propagation), the port cache with
optional, unconnected and asynchronous ports for the limits, and executions with connected synchronous ports.  A user block is a function
from state and spans to state, status, output samples and explicit `consume`/`publish` counts; settings are part of its state and a tag acts on them
through one function.  Not modelled: asynchronous ports in executions, merged tag propagation, the epilogue function, message ports, staged
settings that are forwarded as tags, BlockMerging, `disconnect_on_done`.  Producers are assumed to publish a tag before its sample and in order
(`goodEvents`), and the output tag rings to have room.

## Modelled and not modelled (compression)

`CompModel` follows the whole-buffer codec of `Compression.hpp` function by function: bit writer and reader, matcher, Huffman code
construction, block encodings and their selection, the three containers, decoders and the size query.  Bytes are numbers below 256,
arrays are lists, an access out of range is `Fault`, a loop that outlives its fuel is `Hang`.  Matcher chains are functions from hash to position.
The CRC is that of `CrcModel`.  `CompSpec` states the formats after RFC 1950-1952, without reference to the model.
Not modelled: the vector allocation (and its failure), the compile-time resource wrappers, allocation of the workspace.
The encoder theorems ask for inputs below 2^32 - 1 bytes: the symbol counters (CP:628) are 32 bits wide; with 2^32 occurrences of a symbol
its counter is zero again, the symbol gets no code and its occurrences would be written as nothing.

`StreamModel` follows `InflateStream`, `StreamOutput` and `StreamDecompressor::process`.  The input span of a call is the reader's list (position 0 at
each call, bits kept), the output span is its size and the bytes written; the loop of `process` is cut at every byte or symbol, and its
fuel is shown to suffice.  The 32 KiB history is a function from index to byte.  A `session` (StreamProps) is any sequence of calls without error that offers a piece of the bytes
not yet consumed and asks to finish only when the piece reaches the end.  Not covered: calls after an error, calls that finish before the end of the source.

`StreamEncModel` follows `StreamCompressor`: the window, the index positions, the matcher chains, the bit writer's partial byte and the pending output are its
state; one call is a loop with fuel (shown to suffice).  Tokenizer, code construction and block selection are those of `CompModel`.  Wrapping of 64-bit
positions and allocation failure are not modelled.  Finishing means, as for the decompressor, that the offered piece reaches the end of the input.

## Modelled and not modelled (checked conversions)

`ConvModel` follows `convert_safely` branch by branch for the arithmetic, complex, string, tensor and map types of a `Value`; tensors and maps are opaque.
Integers are unbounded numbers tagged with their type and every cast is explicit.  A finite floating-point number is a pair (m, e) for m * 2^e; theorems
quantify over all pairs or over those of the format.  Rounding is to nearest, ties to even, with gradual underflow and overflow to infinity; the specification speaks of rationals (`fval`).
The sign of zero, NaN payloads, error texts and enumerations are not modelled.  `std::from_chars` for integers is modelled after the standard; the parser for
floating-point text is an argument.  Of `convertTo`, the conversions to vector and array are modelled; maps, static tensors and the resource policies are not.

## Modelled and not modelled (graph topology, priming)

`TopoModel` names blocks by numbers (pointer identity) and keeps of an edge what the functions read: end points, ports, size, weight, name.
Hash maps are association lists; the theorems hold for every reordering of both levels (`sameMap`).  `std::sort` by name is an insertion sort; blocks of equal name keep hash order, hence any order.
Recursions carry a fuel that the proofs show sufficient.  The rates are unbounded integers wrapped where the code multiplies in 32 bits.
`PrimeModel` takes whether an edge can be connected, what the blocks report, and the hash orders as parameters; a port is the port definition of the edge; buffers have room for the priming samples; `disconnectAllEdges` gives every input a fresh buffer.
Not modelled: buffer sizing, the nested schedulers' own start, lifecycle transitions of the blocks during start.

## Modelled and not modelled (editing a graph)

`EditModel` covers `dynamicPortFromName`, `dynamicPortByIndexImpl`, `definedPortName`, `Graph::connect` (the edge it makes, not the buffers), `containsEdge`, `addEdge`, `GraphWrapper::exportPort`, `groupBlocks`, `ungroupBlocks`, `removeBlockByName` and `replaceBlock`.
Blocks are numbers (unique names), physical ports are numbers; a wire is the pair of physical ports at the ends of an edge with its size, weight and name, wherever in the nesting the edge is kept.
Block factories are a parameter (known or not).  Not modelled: messages, the mutex, `init` of the new block, ports of a group other than exported ones.

## Modelled and not modelled (connecting edges)

`LinkModel` covers `applyEdgeConnection`, `calculateStreamBufferSize`, `connectPendingEdges`, `disconnectAllEdges`, `reconnectAllEdges`, `emplaceEdge`, `removeEdgeBySourcePort`, and of `Port` `resizeBuffer`, `materialiseDefaultBuffer`, `connect`, `updateReaderInternal`, `isConnected`, `disconnect`.
A buffer is a number with a size; which port is on which buffer is the state.  The stream and tag buffers of a port count as one; an allocation fails as a whole.  Value types, kinds, allocation and rounding of sizes are parameters (`Env`).
The blocks of a graph are fixed during a history; memory resources and compute domains of edges are not modelled.

## Modelled and not modelled (settings)

`SettModel` covers of `CtxSettings`: `init`, `set`, `setStaged`, `activateContext`, `autoUpdate`, `applyStagedParameters`, `resetDefaults`, `storeDefaults`, `removeContext`, `getStored`, `get`, the lookups, `addStoredParameters` and `removeExpiredStoredParameters`, and the settings part of `Block::init` and `Block::applyChangedSettings`.
Names, contexts and values are numbers; conversion, type test, validation and forwarding per member are parameters (`bdesc`).  Clock readings are arguments.  The moved-from strings of `remove_if` are taken as empty.
Not modelled: meta information, the `settingsChanged` and `reset` callbacks, members changed by the block itself, the Emscripten build, the staged names `reset_default` and `store_default` (never staged: they are no members).

## Modelled and not modelled (YAML)

`YamlModel` covers `YamlPmt.hpp` function by function: the writer in both tag modes and the whole reader (tags, quoted, block and plain scalars, flow and block maps and lists, comments, document start).
The text of finite floating-point numbers and its reading are arguments (`ffmt`).  Errors carry no position or message.  Characters above 0x7f count as not printable.  The recursive parsers take fuel; C129 shows that it never runs out.
Not modelled: error messages and columns, locales, the memory behaviour of the writer.

## Modelled and not modelled (scheduler at run time)

`SchedModel` covers of `Scheduler.hpp`: the work guard and quiescence (227-362), one pass over a job list (718-736), the worker loop (840-975), init, reset, start and exchange (394-455, 746-800), the lists of jobs, adoptions, removals and zombies (1592-1790) and the message handlers that edit them (1174-1485, 1867-1913), and the forwarding of messages between the scheduler and its blocks.
The job lists are those of `Simple` (`customInit`); the orders of the breadth-first and depth-first schedulers are in `TopoModel` (C91-C97).  A sub-scheduler counts as a block.  Memory accesses are sequentially consistent.  Requests for a state of a block are granted at once; blocks change their state by themselves at any time.  The hash that chooses a worker is an argument.
Not modelled: the watchdog, profiling, pool exhaustion, the wait for progress beyond whether it was taken, timing.

## Modelled and not modelled (thread pool)

Modelled (`PoolModel`): `TaskQueue::push/pop/clear`, `createTask` (priority), `execute`, `worker`, `createWorkerThread`, `setThreadBounds`, the flag and the notifications of shutdown, the joins, `computeDefaultThreadSplit`, the check of `Manager()`, `distributeThreadAffinityAcrossCores`.  A step is one access of a shared variable (the queue under its mutex is one variable), a call of a task's function counts as two steps (entry and exit), accesses are sequentially consistent, `_numThreads` and the other counters are unbounded.  Spurious and timed wakeups and spurious failures of the weak compare-exchange are all possible.

Not modelled: recycled task objects, thread names and scheduling parameters, the global thread count and its limit, failing thread creation, the thread list's mutex, exceptions from a task (they end the process), futures, the `Manager`'s map and `ThreadPoolWrapper`.

## Modelled and not modelled (messages)

Modelled (`MsgModel`): `processMessages`, `processScheduledMessages` (own port), the twelve standard property callbacks of `Block.cpp`, `notifyListeners`, `applyChangedSettings` (settings part and notifications), the heartbeat.  The reply port is connected.

Not modelled: an unconnected reply port (replies are dropped), custom properties, the property of exported ports, `Graph` and scheduler endpoints (the scheduler's are in `SchedModel`, graph edits in `EditModel`), message ports beside the built-in one, error texts, blocking in `notifyListeners` when its port is full.

## Modelled and not modelled (selector and synchronising block)

Modelled (`SelModel`): `settingsChanged` and `processBulk` of `Selector`, with the copying of samples and tags.  `None` stands for leaving a span.  Modelled (`SyncModel`): `processBulk` of `SyncBlock` and all its private functions; `_nDroppedSamples` are 64 bits in the code and unbounded in the model (a wrap needs 2^64 samples).

Not modelled: the port plumbing around `processBulk` (in `WorkModel` and `StreamModel`), the console output, tags with negative relative positions.

## Modelled and not modelled (ranges of a stream)

Modelled (`WinModel`): `processBulkDataSet`, `processBulkStream`, `AccumulationState`, `updateHistory`, `findFirstTriggerTag`, `detectTrigger` of `StreamFilterImpl`.  The merged auto-forward map is the list of the tags it is made of; the axis is in samples.


Not modelled: tags with an empty map, the names and units of a data set, `updateMinMax`, a change of n_pre, n_post, n_max or filter in the middle of a stream, `reset`.


## Modelled and not modelled (data sinks)

Modelled (`SinkModel`): `StreamingPoller::process`, `DataSetPoller::process`, `ContinuousListener::process` with poller (claim of the queues and publication as separate steps) and with callback, `TriggerListener`, `MultiplexedListener`, `SnapshotListener`, the history and `ensureHistorySize`; (`SinkRegModel`): `registerSink`, `unregisterSink`, `updateSignalName`, `find` by signal name, `settingsChanged`, `stop`.  The queues are lists with a bound (their own correctness is C01-C16); a call of the listeners has its tags on the first sample, as the sink passes them; the snapshot delay is in samples.  Not modelled: expiry of listeners whose poller is gone, the axis in seconds, metadata in data sets, `DataSetSink` (its queue is the one of C190), lookup by block name, the lock of the registry (each operation is one step).

## Modelled and not modelled (tensors)

Modelled (`TensorModel`): `recomputeStrides`, `product`, `index_of`, `bounds_check`, `at`, `strided_iterator`, `slice`, `transpose`, `reshape`, `is_contiguous`, `fill`, `resize`, `resize_dim`, `operator==`, conversion to an owning tensor.  A view is extents, strides, offset and size; elements are cells of a memory.  Offsets do not wrap; the rank is not bounded.  After a `resize` that throws, extents beyond the former rank are zero in the model and whatever was in the array in the code.

Not modelled: static extents, the rank 0 with no element (a default constructed tensor), `Tensor<bool>`, constructors, `TensorMath.hpp`, ordering.

## Modelled and not modelled (merged blocks)

Modelled (`MergeModel`): `processOne` of `MergeByIndex` for one sample of each input, `graphWithPortMaps` of nested `MergeByIndex`, `processOne` of the feedback merges with and without tap and monitor, `processOne` of `SplitMergeCombine`.  Blocks inside are any functions of a state and one sample of each input.

Not modelled: SIMD calls, different sample types, settings and lifecycle given to inner blocks, tags, chunk sizes, `graph()` of feedback and split blocks, rounding and overflow of the sum.

## Modelled and not modelled (Schmitt trigger)

Modelled (`SchmittModel`): `processOne` with its four methods, `computeEdgePosition`, the block's `processBulk` with time and edge tags.  Samples are integers without bounds, divisions exact; the fits of regression and smoothing are any function of the history.

Not modelled: rounding, overflow, uncertainties, the sub-sample offset, `lastEdgeIdx` beyond 32 bits, forwarded tags, settings changed between calls.

## Modelled and not modelled (saving and loading graphs)

Modelled (`GrcModel`): `saveGraphToMap`, `serializeBlock` as far as the loader reads it, `loadGraphFromMap` with `parseBlockPort`, `getProperty` and the default size of `connect`.
Not modelled: the YAML text (C123-C131 treat it), the effect of settings on a block (C113-C122), failing `activateContext`, loading the body of a sub-graph (any function) and schedulers, the short keys of contexts, definitions in YAML files.

## Modelled and not modelled (lines of GPS receivers)

Modelled (`NmeaModel`): all of `NMEAParser`; fields with real numbers are kept as text, the calendar is any function of the texts of time and date.
Not modelled: `parseNMEACoord`, the calendar, the serial device and the blocks around the parser.

## Modelled and not modelled (envelope of bursts)

Modelled (`TaperModel`): `reset`, `setTarget`, `processOne`, `applyTo`, `applyInPlace` of `BurstTaper`, gains as integers.
Hypothesis of all theorems: the falling ramp is the rising one backwards, as `generateEdge` makes it for two samples or more up to rounding.
Not modelled: the shapes, rounding, a ramp of one sample (rise 0, fall computed at the other end), changes of the configuration.

## Modelled and not modelled (clock source)

Modelled (`TickModel`): `start` and `processBulk` of `ClockSource`: counts, distances in 32 bits, places of tags, restart of the times for `repeat_period` 0.
Not modelled: the timer (`BlockingSync`; its count per call is any number), the conversion of times to samples, the contents of tags, other repeat periods, an unlimited number of samples beyond 32 bits.

## Modelled and not modelled (samples due by the clock)

Modelled (`WallModel`): `computeWallClockSamples`, with whole nanoseconds, whole rates and exact products.
Not modelled: rounding of double, the timer thread, clock ports, pausing.

## Modelled and not modelled (generator of random numbers)

Modelled (`RngModel`): `splitMix64`, `seed`, `next`, `fillRaw`, `toUniform01`, `toUniformM11`, on exact words of 64 bits.
The numbers in floating point are given by their numerators, which fit into 53 and 24 bits.
Not modelled: `triangularM11` (its sum is rounded), statistical quality.
