{"id": "C01", "title": "Single-writer stream buffer delivers a FIFO stream to every reader", "statement": "For a buffer with one writer, every element a reader sees through a span is exactly the element that was published at that stream position, and the spans a reader consumes, put end to end, are the published stream from the position at which the reader attached: nothing lost, duplicated, reordered or altered.", "quantifier": "every capacity, element type, number of readers, and every sequential history of reserve/write/publish/release/get/read/consume/attach/detach calls that respects the documented call contract", "why_tests_cant": "Histories and wrap-around positions are unbounded; a test samples a few capacities and interleavings.", "anchors": ["core/include/gnuradio-4.0/CircularBuffer.hpp:WriterSpan,Writer::tryReserve,ReaderSpan,Reader::get", "core/include/gnuradio-4.0/ClaimStrategy.hpp:SingleProducerStrategy"]}
{"id": "C02", "title": "Unread and held data is never overwritten by the writer", "statement": "While an element is unread by some attached reader, or a reader holds a span over it, nothing the writer does through its reserved span can change what that reader reads.", "quantifier": "every history as above, at every intermediate point, including writes to reserved but not yet published slots", "why_tests_cant": "Requires quantifying over every reservation size and reader lag; overlap shows only at particular wrap positions.", "anchors": ["core/include/gnuradio-4.0/CircularBuffer.hpp:Writer::tryReserve,ReaderSpan", "core/include/gnuradio-4.0/ClaimStrategy.hpp:SingleProducerStrategy::tryNext"]}
{"id": "C03", "title": "Free space and readable counts are exact", "statement": "With at least one reader attached, the writer's available() equals capacity minus (published+reserved minus slowest reader position), never exceeds the capacity, and tryReserve(n) succeeds exactly when 1<=n<=available(); a reader's available() equals published minus its position and never exceeds the capacity.", "quantifier": "every history as above with at least one attached reader", "why_tests_cant": "The count is computed with unsigned wrap-around arithmetic; correctness depends on an invariant over all histories.", "anchors": ["core/include/gnuradio-4.0/ClaimStrategy.hpp:SingleProducerStrategy::getRemainingCapacity", "core/include/gnuradio-4.0/CircularBuffer.hpp:Reader::available"]}
{"id": "C04", "title": "Spans are contiguous across the wrap point and in bounds", "statement": "A writer or reader span of n elements starting at any ring index addresses n consecutive cells inside the allocation (N cells double-mapped, or 2N linear cells), and after every publish both images of every published unread cell are equal, so a reader span crossing the end of the ring reads the right elements.", "quantifier": "every capacity, start index, span length up to the capacity, both memory modes", "why_tests_cant": "Off-by-one in the two-part mirror copy shows only for particular index/length combinations.", "anchors": ["core/include/gnuradio-4.0/CircularBuffer.hpp:WriterSpan::~WriterSpan,CircularBufferView::buffer_size,CircularBufferView::calculateIndex"]}
{"id": "C05", "title": "Partial publication hands unpublished slots back", "statement": "Publishing k of n reserved elements appends exactly the first k written elements to the stream and makes the other n-k slots available again; with no publish call, ProcessNone appends nothing and ProcessAll appends all n; nested span copies publish once, when the last copy is destroyed.", "quantifier": "every n, every k<=n, every split of k over several publish calls, every number of span copies, every release policy", "why_tests_cant": "Combinations of split publishes, copies and policies are unbounded.", "anchors": ["core/include/gnuradio-4.0/CircularBuffer.hpp:WriterSpan::publish,WriterSpan::~WriterSpan", "core/include/gnuradio-4.0/ClaimStrategy.hpp:SingleProducerStrategy::publish"]}
{"id": "C06", "title": "Ring index mapping is position modulo capacity", "statement": "The cell used for stream position p is p modulo the capacity, whether the capacity is a power of two (mask path) or not.", "quantifier": "every position and every non-zero capacity", "why_tests_cant": "Unbounded positions; the mask path equals the modulo path only for powers of two.", "anchors": ["core/include/gnuradio-4.0/CircularBuffer.hpp:CircularBufferView::calculateIndex", "core/include/gnuradio-4.0/ClaimStrategy.hpp:MultiProducerStrategy::calculateIndex"]}
{"id": "C07", "title": "Page rounding of the capacity", "statement": "The capacity chosen for a double-mapped buffer is at least the requested minimum, its byte size is a multiple of the page size, and it is the smallest multiple of (lcm(page,elemsize)/elemsize) that is large enough.", "quantifier": "every requested minimum, page size and element size (non-zero)", "why_tests_cant": "Depends on page and element size, which a test runs with one value of.", "anchors": ["core/include/gnuradio-4.0/CircularBuffer.hpp:CircularBufferView::align_with_page_size"]}
{"id": "C08", "title": "Reader consume contract", "statement": "consume(n) beyond what is readable is rejected and leaves the reader position unchanged; an accepted consume advances the position by exactly n once, when the last copy of the span is destroyed; a second request in the same round is rejected; repeated get() calls in one round never widen the first one; the release policies consume none or all of the first get.", "quantifier": "every history of get/copy/consume/release of one reader interleaved with publications", "why_tests_cant": "Rules interact over arbitrary nesting of copies and repeated gets.", "anchors": ["core/include/gnuradio-4.0/CircularBuffer.hpp:ReaderSpan::tryConsume,ReaderSpan::performConsume,ReaderSpan::~ReaderSpan,Reader::get"]}
{"id": "C09", "title": "Empty or failed reservations do not disturb the stream", "statement": "Creating and dropping a zero-length reservation, or one that failed for lack of space, leaves the published stream, every reader and the writer's free space unchanged.", "quantifier": "every buffer state and every writer object attached to the buffer, including a writer created later", "why_tests_cant": "Needs a state in which the writer's private bookkeeping differs from the buffer's; tests use one writer from the start.", "anchors": ["core/include/gnuradio-4.0/CircularBuffer.hpp:Writer::tryReserve,WriterSpan::~WriterSpan", "core/include/gnuradio-4.0/ClaimStrategy.hpp:SingleProducerStrategy::publish"]}
{"id": "C10", "title": "Free space never exceeds the capacity", "statement": "The writer's available() never reports more than the buffer capacity, whatever readers attach or detach.", "quantifier": "every history of publishing, consuming, attaching and detaching, including histories in which the last reader leaves", "why_tests_cant": "The failing computation is an unsigned underflow reached only after more than one capacity of data was published.", "anchors": ["core/include/gnuradio-4.0/ClaimStrategy.hpp:SingleProducerStrategy::getRemainingCapacity,MultiProducerStrategy::getRemainingCapacity"]}
{"id": "C11", "title": "Housekeeping is invisible to readers", "statement": "Recycling the storage of consumed elements (automatic under writer pressure, or through houseKeeping()) never changes an element that some reader has not consumed yet.", "quantifier": "every history of publishes, consumes and housekeeping calls, any gap between two housekeeping runs", "why_tests_cant": "Depends on how far the stream advanced since the previous housekeeping run, which is unbounded.", "anchors": ["core/include/gnuradio-4.0/CircularBuffer.hpp:CircularBufferView::reclaimBehindReader,Writer::maybeReclaimUnderPressure,CircularBuffer::houseKeeping"]}
{"id": "C12", "title": "Single writer with concurrent readers is safe under every schedule", "statement": "With one writer thread and any number of reader threads, every element a reader reads is the element published at that position, under every interleaving of the individual cursor loads, cell accesses and cursor stores.", "quantifier": "every schedule of atomic steps, any number of readers and steps (sequentially consistent interleaving)", "why_tests_cant": "Schedules are unbounded; a stress test samples few of them.", "anchors": ["core/include/gnuradio-4.0/ClaimStrategy.hpp:SingleProducerStrategy::tryNext,SingleProducerStrategy::publish", "core/include/gnuradio-4.0/CircularBuffer.hpp:Reader::available,ReaderSpan::performConsume"]}
{"id": "C13", "title": "Concurrent producers get disjoint slots", "statement": "No two reservations made concurrently on a multi-producer buffer overlap, and a reservation never covers a slot that an attached reader has not consumed.", "quantifier": "every schedule of any number of producers and readers", "why_tests_cant": "The claim is a lock-free compare-and-set loop with a stale cached minimum; only all schedules settle it.", "anchors": ["core/include/gnuradio-4.0/ClaimStrategy.hpp:MultiProducerStrategy::tryNext,MultiProducerStrategy::next"]}
{"id": "C14", "title": "Multi-producer publication exposes only finished slots, in claim order", "statement": "A reader of a multi-producer buffer never sees a position whose producer has not finished publishing it; the readable prefix only grows; each position shows the value its claiming producer wrote.", "quantifier": "every schedule of any number of producers and readers", "why_tests_cant": "Needs every interleaving of slot marking and cursor advancing.", "anchors": ["core/include/gnuradio-4.0/ClaimStrategy.hpp:MultiProducerStrategy::publish"]}
{"id": "C15", "title": "Multi-producer publication makes progress", "statement": "Once every producer that reserved slots has returned from publishing all of them, everything reserved is readable: no published element stays hidden.", "quantifier": "every schedule that ends with all producers idle", "why_tests_cant": "A lost hand-over between two producers finishing at the same time needs one specific interleaving.", "anchors": ["core/include/gnuradio-4.0/ClaimStrategy.hpp:MultiProducerStrategy::publish"]}
{"id": "C16", "title": "Attaching a reader concurrently keeps other readers' data safe", "statement": "Attaching a new reader while the writer runs never lets the writer overwrite data that another reader has not consumed.", "quantifier": "every interleaving of the attach steps with writer and reader steps", "why_tests_cant": "The window lies between two loads inside the attach call.", "anchors": ["core/include/gnuradio-4.0/Sequence.hpp:addSequences", "core/include/gnuradio-4.0/CircularBuffer.hpp:Reader::Reader", "core/include/gnuradio-4.0/ClaimStrategy.hpp:SingleProducerStrategy::getMinReaderCursor"]}
{"id": "C17", "title": "Concurrent reader registration loses nobody", "statement": "After any interleaving of concurrent reader registrations and removals, the registered set is exactly the readers added and not removed.", "quantifier": "every schedule of any number of concurrent registrations and removals", "why_tests_cant": "Copy-on-write list update through compare-and-set; lost updates depend on the schedule.", "anchors": ["core/include/gnuradio-4.0/Sequence.hpp:addSequences,removeSequence"]}
{"id": "C18", "title": "History buffer is a bounded deque", "statement": "After any sequence of push_front, push_back, range pushes, pop_front, pop_back, resize and reset, element i, size, front and back are those of a sequence bounded by the capacity where a push onto a full buffer drops the element at the opposite end.", "quantifier": "every capacity (power of two or not, fixed or dynamic) and every operation history", "why_tests_cant": "Mixed histories over a lazily mirrored ring; unbounded.", "anchors": ["core/include/gnuradio-4.0/HistoryBuffer.hpp:push_front,push_back,pop_front,pop_back,resize,operator[]"]}
{"id": "C19", "title": "History buffer spans and iterators show the logical contents", "statement": "get_span(i,n) and begin()..end() are contiguous and equal the logical elements, for any wrap position and any mixture of pushes and pops, and stay inside the allocation.", "quantifier": "every history that does not write through references, every i<=size and length", "why_tests_cant": "Lazy mirroring keeps a dirty count; a stale mirror shows only for special histories.", "anchors": ["core/include/gnuradio-4.0/HistoryBuffer.hpp:syncMirror,get_span,begin,end"]}
{"id": "C20", "title": "History buffer writes through references are visible everywhere", "statement": "An element assigned through operator[], at(), front() or back() is the element later seen by get_span and iteration.", "quantifier": "every history and every index", "why_tests_cant": "Visible only when the index has wrapped and the mirror is clean.", "anchors": ["core/include/gnuradio-4.0/HistoryBuffer.hpp:operator[],at,get_span,begin"]}
{"id": "C21", "title": "History buffer range pushes equal repeated single pushes", "statement": "push_back(range) and push_front(range) leave the same observable contents as pushing the elements one at a time.", "quantifier": "every state, range length (also longer than the capacity)", "why_tests_cant": "Unbounded lengths and wrap positions.", "anchors": ["core/include/gnuradio-4.0/HistoryBuffer.hpp:push_back(Iter,Iter),push_front(Iter,Iter)"]}
{"id": "C22", "title": "Atomic bit set range update", "statement": "set(begin,end,v) makes test(i)=v for begin<=i<end and leaves every other bit unchanged; set(i,v) changes bit i only.", "quantifier": "every bit-set size, every range, every previous content", "why_tests_cant": "Partial first and last words give many boundary cases.", "anchors": ["core/include/gnuradio-4.0/AtomicBitset.hpp:set,test,setBitsInWord,setFullWord"]}
{"id": "C23", "title": "Concurrent bit updates do not lose bits", "statement": "Concurrent set calls on different bits of the same word all take effect; the final value of each bit is that of the last update addressing it.", "quantifier": "every interleaving of any number of updates", "why_tests_cant": "Requires all schedules of the compare-and-swap loops.", "anchors": ["core/include/gnuradio-4.0/AtomicBitset.hpp:set,setBitsInWord"]}
{"id": "C24", "title": "Life-cycle transitions follow the documented table", "statement": "A block's state only moves along the documented transitions; a rejected request leaves the state unchanged and reports an error; an erroring or stopped block becomes usable only through re-initialisation.", "quantifier": "every sequence of requested states and every outcome of the user hooks", "why_tests_cant": "Unbounded sequences of requests with failing hooks.", "anchors": ["core/include/gnuradio-4.0/LifeCycle.hpp:isValidTransition,StateMachine::changeStateTo"]}
{"id": "C25", "title": "Life-cycle hooks run exactly once per accepted transition", "statement": "Each accepted transition runs exactly the hook documented for it (init, start, stop, pause, resume, reset), once, and an exception in the hook puts the block in the ERROR state.", "quantifier": "every request sequence and hook outcome", "why_tests_cant": "Needs all histories including throwing hooks.", "anchors": ["core/include/gnuradio-4.0/LifeCycle.hpp:StateMachine::changeStateTo,invokeLifecycleMethod"]}
{"id": "C26", "title": "Concurrent state requests cannot bypass the transition table", "statement": "When two threads request state changes at the same time, the sequence of states observed still only uses documented transitions.", "quantifier": "every interleaving of two or more concurrent requests", "why_tests_cant": "Needs the interleaving between the validity check and the store.", "anchors": ["core/include/gnuradio-4.0/LifeCycle.hpp:StateMachine::changeStateTo,setAndNotifyState"]}
{"id": "C27", "title": "CRC fast paths equal the bitwise definition", "statement": "The table-driven slice-by-8 and chunked CRC computations return the value of the bit-by-bit polynomial division definition.", "quantifier": "every byte sequence of any length, each supported CRC parameter set, each split of the message", "why_tests_cant": "Messages are unbounded; check values cover one message.", "anchors": ["core/include/gnuradio-4.0/CRC.hpp:computeTables,advance8,updateScalar,compute"]}
{"id": "C28", "title": "CRC is incremental", "statement": "Updating with a then b equals updating with the concatenation; the value for the whole message does not depend on how it is split.", "quantifier": "every pair of byte sequences and every starting register", "why_tests_cant": "Unbounded messages and splits.", "anchors": ["core/include/gnuradio-4.0/CRC.hpp:updateScalar,update"]}
{"id": "C29", "title": "CRC detects every single-bit error and every short burst", "statement": "Two messages of the same length that differ in exactly one bit, or within a burst no longer than the register, have different checksums.", "quantifier": "every message length, every error position", "why_tests_cant": "All positions in messages of every length.", "anchors": ["core/include/gnuradio-4.0/CRC.hpp:compute,step"]}
{"id": "C30", "title": "Framed byte stream round-trip", "statement": "Reading back a stream produced by the writer yields exactly the written payloads in order, then end of stream.", "quantifier": "every sequence of payloads shorter than 4 GiB", "why_tests_cant": "Unbounded sequences and sizes.", "anchors": ["core/include/gnuradio-4.0/WireStream.hpp:WireStreamWriter,WireStreamReader"]}
{"id": "C31", "title": "Framed byte stream reader is memory-safe and never invents data", "statement": "On any input bytes the reader never reads beyond the buffer, always terminates, and every frame it returns is a sub-range of the input whose envelope matches its checksum and sequence number.", "quantifier": "every byte sequence", "why_tests_cant": "Arbitrary hostile input.", "anchors": ["core/include/gnuradio-4.0/WireStream.hpp:WireStreamReader::next,readFrameEnvelope"]}
{"id": "C32", "title": "Framed byte stream detects truncation and corruption", "statement": "A valid stream cut after any number of bytes yields exactly the complete frames before the cut and then one truncation report, unless the cut falls exactly between two frames (no report) or inside the stream header (the header is refused); on a stream with checksums, changing at most four consecutive bytes of a payload or sequence number, or any part of a checksum field, marks exactly that frame as corrupt and leaves all other frames unaffected.", "quantifier": "every valid stream, every cut point, every frame, every such change (in particular every flipped payload bit)", "why_tests_cant": "All cut points of all streams.", "anchors": ["core/include/gnuradio-4.0/WireStream.hpp:WireStreamReader::next,computeFrameCrc"]}
{"id": "C33", "title": "Record prefix round-trip", "statement": "The 8-byte record prefix returns each field written, each field occupying its own bytes; annotations written in front of a record are read back unchanged and malformed annotations are rejected.", "quantifier": "every field value and every annotation key/value length", "why_tests_cant": "All field combinations.", "anchors": ["core/include/gnuradio-4.0/WireFormat.hpp:writeHeaderSized,writeAnnotation,readAnnotation"]}
{"id": "C34", "title": "Reader/writer lock excludes readers and writers", "statement": "At no time do a read lock and a write lock exist simultaneously.", "quantifier": "every interleaving of lock, tryLock and unlock by any number of threads", "why_tests_cant": "All schedules.", "anchors": ["core/include/gnuradio-4.0/reader_writer_lock.hpp:ReaderWriterLock::tryLock,lock,unlock"]}
{"id": "C35", "title": "Reader/writer lock counts are restored", "statement": "After every holder has released, the lock is free and both kinds can be acquired; a failed tryLock changes nothing.", "quantifier": "every interleaving ending with no holder", "why_tests_cant": "All schedules.", "anchors": ["core/include/gnuradio-4.0/reader_writer_lock.hpp:ReaderWriterLock::tryLock,unlock"]}
{"id": "C36", "title": "Basic trigger filter decision", "statement": "For a single-trigger filter the matcher reports Matching exactly for tags whose trigger name and context satisfy the filter, and Ignore otherwise; for a start/stop pair it reports Matching from the start trigger up to the stop trigger.", "quantifier": "every filter string and every sequence of tags", "why_tests_cant": "Unbounded tag sequences and strings; needs a state machine argument.", "anchors": ["core/include/gnuradio-4.0/TriggerMatcher.hpp:BasicTriggerNameCtxMatcher::filter,parse,verifyFilterState"]}
{"id": "C37", "title": "Invalid trigger filters are always rejected", "statement": "A malformed filter is reported on every call that uses it, not only the first.", "quantifier": "every malformed filter string and every number of calls", "why_tests_cant": "Depends on the state left by the first failing call.", "anchors": ["core/include/gnuradio-4.0/TriggerMatcher.hpp:verifyFilterState"]}
{"id": "C38", "title": "Chunk pool conserves chunks", "statement": "Every chunk handed out came from upstream exactly once, is never handed out twice at the same time, resident chunks never exceed the configured maximum, and every chunk is returned upstream exactly once at destruction.", "quantifier": "every history of acquire/release/reclaim calls", "why_tests_cant": "Unbounded histories.", "anchors": ["core/include/gnuradio-4.0/ChunkPool.hpp:acquire,release,reclaimToUpstream,~ChunkPool"]}
{"id": "C39", "title": "Chunk buffer keeps variable-size payloads alive until read", "statement": "A payload stored with an element of a chunk-backed buffer stays intact until every attached reader has consumed that element.", "quantifier": "every history of stores, publications, reads and housekeeping", "why_tests_cant": "Depends on chunk switches relative to reader lag.", "anchors": ["core/include/gnuradio-4.0/ChunkBuffer.hpp:WriterSpan::storeBlob,sealHead,houseKeeping"]}
{"id": "C40", "title": "Static arena allocations are aligned, disjoint and in bounds", "statement": "Every block returned by the fixed arena lies inside the arena, satisfies the requested alignment, and does not overlap any block returned before; exhaustion is reported instead of overflowing.", "quantifier": "every arena size and base address, every request sequence", "why_tests_cant": "Unbounded request sequences.", "anchors": ["core/include/gnuradio-4.0/MemoryAllocators.hpp:StaticArenaResource::do_allocate"]}
{"id": "C41", "title": "Property map behaves as an insertion-ordered map", "statement": "After any sequence of emplace, insert_or_assign, erase, clear, reserve and shrink_to_fit, lookup of each key returns the last value assigned to it, iteration lists the keys in insertion order, and no operation on one key changes the value of another.", "quantifier": "every operation history, any keys (short, well-known, longer than 34 characters) and value sizes", "why_tests_cant": "Values share a byte pool with an in-place free list; corruption needs particular size sequences.", "anchors": ["core/include/gnuradio-4.0/ValueMap.hpp:ValueMap::emplace,insert_or_assign,erase,find,_freeListPopFit,_appendValueRecord,_grow"]}
{"id": "C42", "title": "Property map storage never overlaps", "statement": "At every moment the regions holding live values, long keys and free chunks are pairwise disjoint and inside the allocated pool.", "quantifier": "every operation history without merge", "why_tests_cant": "Invariant over unbounded histories of splits and reuse.", "anchors": ["core/include/gnuradio-4.0/ValueMap.hpp:_freeListPush,_freeListPopFit,_appendPayload,_reclaimEntryPayload"]}
{"id": "C43", "title": "Merging property maps preserves later updates", "statement": "After merging one map into another, erasing or reassigning one key never changes the value of any other key.", "quantifier": "every pair of maps and every subsequent history", "why_tests_cant": "The damage needs merge, erase and insert in sequence with particular sizes.", "anchors": ["core/include/gnuradio-4.0/ValueMap.hpp:ValueMap::merge,_reclaimEntryPayload"]}
{"id": "C44", "title": "Serialised property maps are accepted back", "statement": "from_blob applied to the bytes of any map succeeds and yields an equal map, also for maps containing nested maps.", "quantifier": "every map built through the public interface", "why_tests_cant": "Nesting depth and layout unbounded; existing tests only check rejection for nested maps.", "anchors": ["core/include/gnuradio-4.0/ValueMap.hpp:ValueMap::from_blob,_validateBlob,blob"]}
{"id": "C45", "title": "Untrusted property map bytes are validated safely", "statement": "from_blob on arbitrary bytes terminates without reading outside the input, and when it accepts, every later key or value access stays inside the blob.", "quantifier": "every byte sequence", "why_tests_cant": "Arbitrary hostile input.", "anchors": ["core/include/gnuradio-4.0/ValueMap.hpp:_validateBlob,_validateTensorSubBlob"]}
{"id": "C46", "title": "Assigning an empty value clears the previous one", "statement": "insert_or_assign(key, v) makes lookup of key return v, also when v is the empty value.", "quantifier": "every map, key and value", "why_tests_cant": "Only the empty value on an existing key is affected.", "anchors": ["core/include/gnuradio-4.0/ValueMap.hpp:ValueMap::insert_or_assign,_assignValueAt"]}
{"id": "C47", "title": "Fixed-storage property map rejects without damage", "statement": "On a map formatted into caller storage, an insertion that does not fit is refused and every existing key keeps its value; no write leaves the storage.", "quantifier": "every storage size and history of bounded insertions, assignments and erasures", "why_tests_cant": "Boundary depends on alignment padding and the remaining pool.", "anchors": ["core/include/gnuradio-4.0/ValueMap.hpp:ValueMapView::formatAt,ValueMapView::try_emplace,ValueMapView::insert_or_assign,_tryAppendValueRecord"]}
{"id": "C48", "title": "Aligned blob allocation is recoverable", "statement": "The aligned block returned for a map lies inside the raw allocation, is 16-byte aligned, and the raw pointer recovered at release is the one obtained at allocation.", "quantifier": "every raw address and size", "why_tests_cant": "All raw alignments.", "anchors": ["core/include/gnuradio-4.0/ValueMap.hpp:_alignedAllocate,_alignedDeallocate"]}
{"id": "C49", "title": "Tag merging keeps the latest value", "statement": "Merging tag maps keeps every key of both and the source's value on conflict.", "quantifier": "every pair of maps", "why_tests_cant": "Unbounded maps.", "anchors": ["core/include/gnuradio-4.0/Tag.hpp:updateMaps"]}
{"id": "C50", "title": "Aligned allocator returns room for the elements asked for", "statement": "Aligned<T>::allocate(n) returns storage for n objects of type T or reports failure.", "quantifier": "every element count and element size", "why_tests_cant": "Needs element counts close to the size of the address space.", "anchors": ["core/include/gnuradio-4.0/MemoryAllocators.hpp:Aligned::allocate"]}
{"id": "C51", "title": "Value records in a property map are aligned", "statement": "Every value stored in a property map starts at a multiple of 16 bytes within the blob, so that readers (including device code) may access scalars and nested headers in place.", "quantifier": "every operation history", "why_tests_cant": "Misalignment needs a freed long key to be reused for a value; odd offsets work silently on x86.", "anchors": ["core/include/gnuradio-4.0/ValueMap.hpp:_appendValueRecord,_freeListPopFit,_appendPayload"]}
{"id": "C52", "title": "Validation time is bounded by the input", "statement": "Validating received property map bytes examines a number of entries, tensor elements and free chunks that is linear in the number of bytes.", "quantifier": "every byte sequence", "why_tests_cant": "Worst cases are hostile inputs that no test contains.", "anchors": ["core/include/gnuradio-4.0/ValueMap.hpp:_validateBlob,_validateTensorSubBlob"]}
{"id": "C53", "title": "The work loop respects every port", "statement": "Whatever is available on the ports, whatever the next tag, the end of stream, the stride state and the requested work: if a call of Block::work decides to process samples, it takes a whole number of input chunks and writes the same number of output chunks; on every synchronous port this is at least min_samples, at most max_samples and no more than is available (free); and it does not reach past the end-of-stream tag.", "quantifier": "every configuration with chunk sizes in 1..2^31, any ports (optional, unconnected, asynchronous), any availability, tag distance, stride counter and requested work", "why_tests_cant": "Limits interact (tags, chunk sizes, minima, maxima, requested work, 64-bit wrap); tests sample a handful of combinations.", "anchors": ["core/include/gnuradio-4.0/Block.hpp:computeSampleLimits,computeResampling,PortCache"]}
{"id": "C54", "title": "A block with enough input and room makes progress", "statement": "If one more chunk of input is available on every input port and there is room for its output, the next call of work processes at least one chunk (or ends the stream); tags do not stall a block.", "quantifier": "every reachable state of every block", "why_tests_cant": "A stall needs a tag at a particular distance from the read position; a test that does not hit it passes.", "anchors": ["core/include/gnuradio-4.0/Block.hpp:computeSampleLimits,computeResampling"]}
{"id": "C55", "title": "The result of a block does not depend on the schedule", "statement": "For a block that works chunk by chunk (any state, several inputs and outputs, tags changing its settings): however its input arrives in pieces, however often and with whatever requested work and output space work is called, its state, output samples and published tags are those of processing the first k chunks one after the other, each chunk after applying the tags that belong to it.", "quantifier": "every sequence of feeds and calls of work, every stateful chunk function, chunk sizes, tags; default tag propagation, no stride, ports that ask for at most one sample, at most nine tags per chunk if there are several inputs", "why_tests_cant": "Tests run a few schedules; independence is a statement about all of them.", "anchors": ["core/include/gnuradio-4.0/Block.hpp:workInternal,forwardInputTags,applyInputTagsFromPorts,finaliseIO", "core/include/gnuradio-4.0/Port.hpp:InputSpan"]}
{"id": "C56", "title": "Tags are forwarded once, in order, at their sample", "statement": "Every tag that reaches a block with one input is forwarded exactly once, in stream order, with the first output sample of the chunk it belongs to (for 1:1 blocks: at its own sample).", "quantifier": "every sequence of feeds and calls of work, every processing function", "why_tests_cant": "Loss and duplication depend on where a call of work ends relative to a tag.", "anchors": ["core/include/gnuradio-4.0/Block.hpp:forwardInputTags,finaliseIO", "core/include/gnuradio-4.0/Port.hpp:InputSpan::~InputSpan"]}
{"id": "C57", "title": "End of stream", "statement": "A block never consumes samples beyond an end-of-stream tag; it stops because of such a tag only, and then with less than one chunk left in front of it; it does stop as soon as less than one chunk is left; it publishes its own end-of-stream tag one past its last output sample; a stopped block changes nothing any more.", "quantifier": "every sequence of feeds and calls of work before and after the stop", "why_tests_cant": "The condition contains a 64-bit product that wraps when no tag is present; tests do not reach such sizes.", "anchors": ["core/include/gnuradio-4.0/Block.hpp:computeSampleLimits,workInternal,publishEoS"]}
{"id": "C58", "title": "Strided blocks read on the grid of multiples of the stride", "statement": "A block with a stride reads chunk j from sample j * stride, for stride below and above the chunk size, however it is scheduled.", "quantifier": "every sequence of feeds and calls of work, every stride", "why_tests_cant": "The left-over of a stride is carried over between calls; only some schedules split a gap.", "anchors": ["core/include/gnuradio-4.0/Block.hpp:inputSamplesToSkipBeforeNextChunk,inputSamplesToConsumeAdjustedWithStride"]}
{"id": "C59", "title": "Strided 1:1 blocks do not depend on the schedule", "statement": "A block with chunk sizes 1 and a stride produces the same output however its input arrives in pieces.", "quantifier": "every sequence of feeds and calls of work", "why_tests_cant": "As C55.", "anchors": ["core/include/gnuradio-4.0/Block.hpp:finaliseIO,inputSamplesToConsumeAdjustedWithStride"]}
{"id": "C60", "title": "A tag is moved by less than one chunk", "statement": "The output position of a forwarded tag corresponds to an input position at or after the tag's sample and less than one input chunk behind it.", "quantifier": "every sequence of feeds and calls of work", "why_tests_cant": "The shift depends on the schedule.", "anchors": ["core/include/gnuradio-4.0/Block.hpp:computeSampleLimits,forwardInputTags"]}
{"id": "C61", "title": "The vectorised loop covers every sample once", "statement": "For every number of samples and every power-of-two vector width, the main loop and the halving epilogue of processOne on SIMD types touch every sample exactly once, in order.", "quantifier": "every number of samples, every width", "why_tests_cant": "Tests use the widths of one machine and a few lengths.", "anchors": ["core/include/gnuradio-4.0/Block.hpp:invokeProcessOneSimd,simd_epilogue"]}
{"id": "C62", "title": "The same tag on several inputs is forwarded once", "statement": "Of equal tags that arrive together on several inputs of a block, one is forwarded.", "quantifier": "every number of inputs and tags", "why_tests_cant": "The memory for recognising duplicates has eight entries; tests use fewer tags.", "anchors": ["core/include/gnuradio-4.0/Block.hpp:forwardInputTags"]}
{"id": "C63", "title": "Decompression decodes exactly the published formats", "statement": "For every byte string, format and size limit, decompress returns data if and only if the bytes are a raw DEFLATE, zlib or gzip stream (RFC 1951, 1950, 1952; check values and sizes right, nothing left over) whose content is that data and fits the limit; decoding into a caller's span succeeds under the same condition and leaves the content in its first bytes.", "quantifier": "every byte string, format, limit and span", "why_tests_cant": "The formats allow unboundedly many encodings of the same data; tests decode a few streams and reject a few damaged ones.", "anchors": ["core/include/gnuradio-4.0/Compression.hpp:decompress,decodeDeflate,decodeZlib,decodeGzip,makeDecoder"]}
{"id": "C64", "title": "Hostile compressed input is harmless", "statement": "On arbitrary bytes the decoders terminate with a value or an error code; they never read outside the input, write outside the output or index a table out of range.", "quantifier": "every byte string, every format, every output size", "why_tests_cant": "Fuzzing samples the inputs; a missing bound shows only on a particular bit pattern.", "anchors": ["core/include/gnuradio-4.0/Compression.hpp:decompressInto,HuffmanDecoder,BitReader,SpanOutput"]}
{"id": "C65", "title": "The size query agrees with decoding", "statement": "decompressedSize validates the stream and returns the exact size of its content; decoding into a span of that size then succeeds.", "quantifier": "every byte string, format and limit", "why_tests_cant": "The two passes share code but differ in output type; tests compare them on valid streams.", "anchors": ["core/include/gnuradio-4.0/Compression.hpp:decompressedSize,CountingOutput"]}
{"id": "C66", "title": "A compressed stream has one meaning", "statement": "A byte string has at most one content in each format, and where a DEFLATE stream is followed by other bytes its end is determined by its beginning.", "quantifier": "all byte strings", "why_tests_cant": "A statement about all pairs of readings.", "anchors": ["core/include/gnuradio-4.0/Compression.hpp:decodeDeflate,consumedBytes"]}
{"id": "C67", "title": "Adler-32 is right at every length", "statement": "The Adler-32 of any byte string equals the definition in RFC 1950, also when computed piecewise; the sums kept in 32 bits never wrap although the modulus is taken only every 5552 bytes.", "quantifier": "every length and content", "why_tests_cant": "The wrap would need thousands of large bytes at the worst alignment.", "anchors": ["core/include/gnuradio-4.0/Compression.hpp:updateAdler,adler32"]}
{"id": "C68", "title": "Compress then decompress gives the input back", "statement": "For every byte string below 4 GiB, every format and compression level, compress() succeeds and decompress() of its result is the original byte string; the size query reports its length and decoding into a span of at least that length writes it.", "quantifier": "all inputs below 4 GiB, formats, levels, CRC engine widths and output limits at least the input size", "why_tests_cant": "The match finder, the lazy evaluation, the length limiting of Huffman codes and the choice between three encodings interact differently on every input.", "anchors": ["core/include/gnuradio-4.0/Compression.hpp:compressToVector,compressInto,tokenize,makeDynamicCoding,emitWrapped", "core/include/gnuradio-4.0/Compression.hpp:decompressToVector"]}
{"id": "C69", "title": "compressBound is never exceeded", "statement": "The compressed size is at most compressBound(size, format), which is the size plus five bytes per started 65535 bytes (at least once) plus 0, 6 or 18 bytes; and no other of the three block encodings would have given fewer bytes.", "quantifier": "all inputs below 4 GiB, formats and levels", "why_tests_cant": "A single input for which the counted size and the written size differ by one bit would return outputTooSmall.", "anchors": ["core/include/gnuradio-4.0/Compression.hpp:compressBound,selectEncoding,BitCounter,BitWriter,emitStoredDeflate"]}
{"id": "C70", "title": "Compressed output conforms to the published formats", "statement": "Every output of compress() is a well-formed stream of RFC 1951, 1950 or 1952 for exactly the input, with correct check value and size field; the Huffman code of a block is complete, within its depth limit, and covers every symbol in use.", "quantifier": "all inputs below 4 GiB, formats and levels; all frequency tables", "why_tests_cant": "Interoperability tests sample some inputs; an incomplete or over-long code arises only for particular frequency shapes.", "anchors": ["core/include/gnuradio-4.0/Compression.hpp:makeCodeLengths,makeCanonicalCodes,encodeCodeLengths,emitDynamicDeflate"]}
{"id": "C71", "title": "A completed decompression stream is the content of the stream", "statement": "However a byte stream is cut into pieces and whatever room each process() call is given: when the source is used up and the status is done, the bytes produced are exactly the content of the raw DEFLATE, zlib or gzip stream and no more than the limit; no call consumes more than it was offered, writes more than it has room for, or takes the total over the limit.", "quantifier": "all byte streams, formats, limits, cuts into pieces and output sizes", "why_tests_cant": "The suspended state (symbol boundary, window position, header field, pending copy) differs for every cut; tests try a few piece sizes.", "anchors": ["core/include/gnuradio-4.0/Compression.hpp:StreamDecompressor::process,InflateStream,StreamOutput"]}
{"id": "C72", "title": "A valid stream is never refused because of how it is cut", "statement": "For a well-formed stream whose content fits the limit every process() call succeeds, what was produced is always the beginning of the content, done means all of it is there and the stream used up, and a finishing call ends with done or with its output full.", "quantifier": "all well-formed streams, cuts and output sizes", "why_tests_cant": "A cut inside each possible field and symbol would have to be tried with each amount of room.", "anchors": ["core/include/gnuradio-4.0/Compression.hpp:StreamDecompressor::process,InflateStream,StreamOutput"]}
{"id": "C73", "title": "Hostile streams are harmless in pieces too", "statement": "On arbitrary bytes in arbitrary pieces every process() call, up to and including the first that reports an error, terminates with a result or an error code and makes no access out of range.", "quantifier": "all byte streams, formats, limits, cuts and output sizes", "why_tests_cant": "Fuzzing samples the inputs and hardly ever the cuts.", "anchors": ["core/include/gnuradio-4.0/Compression.hpp:StreamDecompressor::process,InflateStream,StreamOutput"]}
{"id": "C74", "title": "Streaming and whole-buffer decompression agree", "statement": "A way of cutting the stream up completes with data exactly when decompress() of the whole returns that data; any two ways that complete give the same bytes; if one call of one session reports an error then decompress() fails on the whole and no session completes.", "quantifier": "all byte streams, formats, limits and pairs of sessions", "why_tests_cant": "A statement about all pairs of cuts and two separate implementations of the format.", "anchors": ["core/include/gnuradio-4.0/Compression.hpp:StreamDecompressor::process,InflateStream,StreamOutput"]}
{"id": "C75", "title": "The status says why process() returned, and the loop ends", "statement": "needInput: finishing was not requested and at most five of the offered bytes are left over; needOutput: the output is full; done: everything offered is consumed. The documented loop over a valid stream whose source has ended stops after at most one call more than the output needs, with all of the content.", "quantifier": "all sessions, all output sizes above zero", "why_tests_cant": "A livelock needs one particular combination of cut, room and state.", "anchors": ["core/include/gnuradio-4.0/Compression.hpp:StreamDecompressor::process,InflateStream,StreamOutput"]}
{"id": "C76", "title": "Errors are sticky", "statement": "Once process() has failed it keeps failing and produces nothing until reset().", "quantifier": "all streams, all calls after an error", "why_tests_cant": "Tests check one error and one further call.", "anchors": ["core/include/gnuradio-4.0/Compression.hpp:StreamDecompressor::process,InflateStream,StreamOutput"]}
{"id": "C77", "title": "The streaming compressor round-trips", "statement": "However the input is cut into pieces and however little room each call has: once process() reports done, the bytes produced form a stream of the chosen format whose content is exactly the input, and both decompressors give the input back. There is no limit on the size of the input.", "quantifier": "all inputs, formats, levels, block sizes, sequences of calls", "why_tests_cant": "Blocks share one bit stream, one match window and one checksum across calls; tests try a few cuts.", "anchors": ["core/include/gnuradio-4.0/Compression.hpp:StreamCompressor::process,queueDeflateBlock,drain"]}
{"id": "C78", "title": "Every compressor call stays in bounds and succeeds", "statement": "No call of a session fails, accesses memory out of bounds or fails to return; it consumes at most what was offered and writes at most what fits; all that was ever produced is at most 6 bytes per block plus the container longer than the input.", "quantifier": "all inputs, formats, levels, block sizes, sequences of calls", "why_tests_cant": "An off-by-one in the window or the pending output needs particular sizes.", "anchors": ["core/include/gnuradio-4.0/Compression.hpp:StreamCompressor::process,queueDeflateBlock,drain"]}
{"id": "C79", "title": "Cutting does not change the compressed bytes, and finishing ends", "statement": "Unless the input is a positive whole number of blocks the compressed bytes do not depend on the cut of input and output; otherwise there are at most two results. Calling with the rest of the input and any room above zero until done stops after a bounded number of calls with a complete stream.", "quantifier": "all pairs of sessions over the same input; all output sizes above zero", "why_tests_cant": "Quantifies over pairs of executions.", "anchors": ["core/include/gnuradio-4.0/Compression.hpp:StreamCompressor::process,queueDeflateBlock,drain"]}
{"id": "C80", "title": "The compressor's status says why the call returned", "statement": "needInput: everything offered was consumed and more is needed; needOutput: the output is full; done: the stream is complete. Errors are sticky until reset().", "quantifier": "all sessions", "why_tests_cant": "The exceptions need an output buffer that is filled exactly.", "anchors": ["core/include/gnuradio-4.0/Compression.hpp:StreamCompressor::process,queueDeflateBlock,drain"]}
{"id": "C81", "title": "A checked integer conversion keeps the number", "statement": "convert_safely from one integer type to another (or to bool) succeeds exactly when the target type holds the number (for bool: 0 or 1), and then yields that number; otherwise it reports an error.", "quantifier": "all 8 x 8 pairs of integer types and all numbers", "why_tests_cant": "64-bit ranges cannot be enumerated; the wrong answers lie above 2^63.", "anchors": ["core/include/gnuradio-4.0/PmtTypeHelpers.hpp:convert_safely"]}
{"id": "C82", "title": "A checked conversion from integer to floating point is exact", "statement": "convert_safely from an integer type to float or double yields a number equal to the source or an error; it succeeds whenever the target represents the number exactly.", "quantifier": "all integer types, both floating-point types, all numbers", "why_tests_cant": "The number space cannot be enumerated; single values such as zero are special-cased by accident.", "anchors": ["core/include/gnuradio-4.0/PmtTypeHelpers.hpp:convert_safely"]}
{"id": "C83", "title": "A checked conversion from floating point to integer is exact and defined", "statement": "convert_safely from float or double to an integer type (or bool) succeeds exactly when the source is finite, integral and in the target's range, and then yields that integer; it never executes an undefined cast.", "quantifier": "all floating-point numbers and all integer types", "why_tests_cant": "The undefined cases are single numbers one above the range; a sanitizer run would have to hit them.", "anchors": ["core/include/gnuradio-4.0/PmtTypeHelpers.hpp:convert_safely"]}
{"id": "C84", "title": "A checked conversion between float and double gives the nearest number", "statement": "convert_safely between float and double refuses NaN, infinities and numbers beyond the target's greatest finite number; otherwise it yields a finite number of the target format nearest to the source, and float to double is exact.", "quantifier": "all floating-point numbers", "why_tests_cant": "Nearest quantifies over all numbers of the target format.", "anchors": ["core/include/gnuradio-4.0/PmtTypeHelpers.hpp:convert_safely"]}
{"id": "C85", "title": "Complex conversions keep the number", "statement": "convert_safely from a real number to a complex type gives the converted real part with imaginary part zero; a complex number with imaginary part zero converts like its real part, and complex numbers of different precision convert part by part.", "quantifier": "all numbers and all target types", "why_tests_cant": "Claims about every source value of a type.", "anchors": ["core/include/gnuradio-4.0/PmtTypeHelpers.hpp:convert_safely"]}
{"id": "C86", "title": "A text converts exactly when it writes a number of the type", "statement": "A std::string converts to an integer type exactly when it consists of white space, an optional minus sign (signed types only), decimal digits, white space and an optional # comment, and the number fits; the result is that number. It converts to bool exactly when it spells true, false, 1 or 0 in letters of any case.", "quantifier": "all texts of any length", "why_tests_cant": "The set of texts is infinite.", "anchors": ["core/include/gnuradio-4.0/PmtTypeHelpers.hpp:convert_safely", "core/include/gnuradio-4.0/PmtTypeHelpers.hpp:trimAndCutComment"]}
{"id": "C87", "title": "A stored value converts to its own type, and strictly to nothing else", "statement": "convert_safely applied to a Value yields the stored value unchanged when asked for its own type; with strict checking it yields nothing for any other type; a stored text converts like the text itself.", "quantifier": "all values and targets", "why_tests_cant": "Quantifies over all values; the text case is a property of overload and dispatch types.", "anchors": ["core/include/gnuradio-4.0/PmtTypeHelpers.hpp:convert_safely", "core/src/ValueHelper.cpp:ValueVisitor::visit"]}
{"id": "C88", "title": "parseToMinimalNumeric chooses the smallest type of the variant", "statement": "For a text that writes an integer the result is that integer in a type of the variant that holds it, and no narrower type of the variant (or equally narrow signed one) holds it; it is refused only when none does. A text with a decimal point or an exponent gives a floating-point number.", "quantifier": "all texts, all sets of types in the variant", "why_tests_cant": "256 subsets times infinitely many texts.", "anchors": ["core/include/gnuradio-4.0/PmtTypeHelpers.hpp:parseToMinimalNumeric"]}
{"id": "C89", "title": "convertTo with the Safe and Widening policies keeps every number", "statement": "Converting a tensor to a vector or array under Safe or Widening yields the same number of elements, element by element equal to the source; Safe only accepts the same element type; an array is only filled when the sizes agree; no policy runs an undefined cast.", "quantifier": "all element types, policies, tensors of any size", "why_tests_cant": "All element values and lengths.", "anchors": ["core/include/gnuradio-4.0/ValueHelper.hpp:tensorToVector,tensorToArray,is_widening_v"]}
{"id": "C90", "title": "A tensor of values converts like the tensor of their type", "statement": "Converting a tensor of values that all hold type S gives the same result as converting the tensor of S; when an element cannot be converted, the reported index is that of the first one.", "quantifier": "all element types, policies, tensors of any size", "why_tests_cant": "Relates two code paths over all inputs.", "anchors": ["core/include/gnuradio-4.0/ValueHelper.hpp:tryConvertElement,tensorOfValueToVector"]}
{"id": "C91", "title": "The default scheduler gives every block exactly one place", "statement": "The job lists of the Simple scheduler deal out the blocks of the graph and its transparent groups in turn: min(threads, blocks) lists (one if single-threaded), none empty, lengths differing by at most one, every block in exactly one place.", "quantifier": "all graphs and nestings, all thread counts and policies", "why_tests_cant": "Needs all graph shapes and thread counts at once.", "anchors": ["core/include/gnuradio-4.0/Scheduler.hpp:Simple::customInit,availableThreadCount"]}
{"id": "C92", "title": "The searching schedulers run every block of their graph and only those", "statement": "The job lists of the breadth-first and depth-first schedulers hold every block of the graph exactly once and no block of another scheduler. (Proved: exactly the blocks reachable from a source, each once, for every hash order. The full claim is false.)", "quantifier": "all graphs, names, thread counts, iteration orders of the hash maps", "why_tests_cant": "The iteration order of the hash maps is unspecified; a test sees one.", "anchors": ["core/include/gnuradio-4.0/Scheduler.hpp:BreadthFirst::customInit,DepthFirst::customInit", "core/include/gnuradio-4.0/Graph.hpp:findSourceBlocks,computeAdjacencyList"]}
{"id": "C93", "title": "Search order", "statement": "Breadth first: sources sorted by name come first, a nearer block before one further away, every block after one feeding it. Depth first: always continue from the latest block with somewhere new to go.", "quantifier": "all graphs, iteration orders of the hash maps", "why_tests_cant": "A test fixes one graph and one hash order.", "anchors": ["core/include/gnuradio-4.0/Scheduler.hpp:BreadthFirst::customInit,DepthFirst::customInit,batchBlocks"]}
{"id": "C94", "title": "Weakly connected components", "statement": "The parts returned hold every block once, two blocks share a part exactly when a chain of edges connects them, every part has exactly the edges between its blocks, larger parts first.", "quantifier": "all graphs, every order the sort may produce", "why_tests_cant": "Connectivity is a statement about chains of any length.", "anchors": ["core/include/gnuradio-4.0/Graph.hpp:weaklyConnectedComponents"]}
{"id": "C95", "title": "Feedback loops are found", "statement": "Every reported loop is a cycle passing no block twice, no two are closed by the same edge, every cycle contains the closing edge of a reported one (so there is none exactly when nothing is reported), and every loop is reported. (The last part is false.)", "quantifier": "all graphs, iteration orders of the hash maps", "why_tests_cant": "Quantifies over all cycles of all graphs.", "anchors": ["core/include/gnuradio-4.0/Graph.hpp:detectFeedbackLoops"]}
{"id": "C96", "title": "Priming size of a feedback loop", "statement": "A loop is refused exactly when its rate changes do not cancel; the size is the largest of what ports, chunks and strides on the loop ask for; it is enough for every block of the loop to run once.", "quantifier": "all loops and block parameters", "why_tests_cant": "Products over loops of any length, including overflow.", "anchors": ["core/include/gnuradio-4.0/Graph.hpp:calculateLoopPrimingSize"]}
{"id": "C97", "title": "Flattening keeps everything once", "statement": "flatten(graph) has exactly the blocks of the graph and of the groups looked into, every connection between them once, and nothing else. (The last part is false.)", "quantifier": "all graphs and nestings", "why_tests_cant": "Nesting of any depth.", "anchors": ["core/include/gnuradio-4.0/Graph.hpp:flatten,forEachBlock,traverseSubgraphs"]}
{"id": "C98", "title": "Feedback loops are primed exactly once", "statement": "Starting a scheduler primes no input twice, primes only edges that close a loop, with the size computed for it, and leaves no cycle unprimed; nothing outside a loop receives priming samples, a faultless start reports no errors, and pausing and resuming does not prime again. (The last three are false.)", "quantifier": "all graphs with transparent groups, all iteration orders", "why_tests_cant": "Needs every graph and every pause/resume history.", "anchors": ["core/include/gnuradio-4.0/Scheduler.hpp:connectPendingEdges,start,resume", "core/include/gnuradio-4.0/Graph.hpp:primeLoop", "core/include/gnuradio-4.0/Block.hpp:primePort"]}
{"id": "C99", "title": "All connectable edges get connected", "statement": "Starting a scheduler connects every connectable edge of its graph and of the transparent groups in it, and reports success exactly if all could be connected. (Proved when all are connectable; one bad edge disconnects others.)", "quantifier": "all graphs with transparent groups", "why_tests_cant": "Every combination of nesting and failing edges.", "anchors": ["core/include/gnuradio-4.0/Scheduler.hpp:connectPendingEdges", "core/include/gnuradio-4.0/Graph.hpp:Graph::connectPendingEdges"]}
{"id": "C100", "title": "A port definition selects the port it names", "statement": "An index, a name, or a collection name with '#' and an element number selects exactly that port of a block; writing an index out as a name selects the same port; nothing else selects a port. (Text after the element number is accepted, so the last part is false.)", "quantifier": "all port lists with distinct names free of '#', all definitions", "why_tests_cant": "All names and indexes, collections of any size.", "anchors": ["core/include/gnuradio-4.0/BlockModel.hpp:dynamicPortFromName,dynamicPortByIndexImpl", "core/src/Graph.cpp:definedPortName"]}
{"id": "C101", "title": "Grouping keeps the wiring", "statement": "After grouping any set of blocks the physical ports are joined by exactly the same connections, with the same sizes, weights and names, counted with multiplicity. (False for element ports of collections that become exported under a name with '#', and for memory resources.)", "quantifier": "all graphs, all sets of blocks", "why_tests_cant": "All graphs and all choices of blocks, several edges over one border port.", "anchors": ["core/src/Graph.cpp:groupBlocks", "core/include/gnuradio-4.0/Graph.hpp:exportPort,connect"]}
{"id": "C102", "title": "Failed grouping changes nothing", "statement": "If grouping reports an error the graph is as before. (False if the error comes after planning, for a port name that does not exist.)", "quantifier": "all graphs, all sets of blocks", "why_tests_cant": "All error paths over all graphs.", "anchors": ["core/src/Graph.cpp:groupBlocks"]}
{"id": "C103", "title": "Ungrouping keeps the wiring", "statement": "Ungrouping any group, made by hand or by grouping, joins the physical ports as before, and a failing call leaves the graph unchanged. (False if two exports have the same name.)", "quantifier": "all graphs, all groups with distinct exported names", "why_tests_cant": "All nestings, exports and edges.", "anchors": ["core/src/Graph.cpp:ungroupBlocks"]}
{"id": "C104", "title": "Ungrouping undoes grouping", "statement": "Ungrouping a freshly made group succeeds and gives back the same blocks and the same wiring, with identical edges. (The last is false: indexes come back as names.)", "quantifier": "all graphs, all sets of blocks", "why_tests_cant": "Round trip over all graphs.", "anchors": ["core/src/Graph.cpp:groupBlocks,ungroupBlocks"]}
{"id": "C105", "title": "Removing and replacing a block touches only that block", "statement": "Removing a block removes it and the edges at it and nothing else; replacing puts the new block at the same port definitions of the same edges; unknown blocks and types change nothing. (Replacing in a graph that fills the reserved room is undefined.)", "quantifier": "all graphs and blocks", "why_tests_cant": "All graphs, in particular every number of blocks.", "anchors": ["core/include/gnuradio-4.0/Graph.hpp:removeBlockByName", "core/src/Graph.cpp:replaceBlock"]}
{"id": "C106", "title": "Exporting a port and withdrawing it", "statement": "Exporting under a new name makes that name denote that port of the inner block and nothing else; refused calls change nothing; withdrawing restores the group. (False if a name is exported twice, which is accepted.)", "quantifier": "all groups, ports and names", "why_tests_cant": "All histories of exports.", "anchors": ["core/include/gnuradio-4.0/Graph.hpp:exportPort"]}
{"id": "C107", "title": "A connected edge carries samples", "statement": "An edge that the graph reports as Connected has its destination reading the buffer its source writes to, after any history of connecting, emplacing, removing, disconnecting and reconnecting. (True if each port is written one way in all edges and each input is fed once; false for mixed spellings, two feeders, and after grouping, ungrouping or replacing in a running graph.)", "quantifier": "all graphs, all histories of edge operations", "why_tests_cant": "Needs every history; each single step works in isolation.", "anchors": ["core/include/gnuradio-4.0/Graph.hpp:applyEdgeConnection,connectPendingEdges,disconnectAllEdges,reconnectAllEdges,emplaceEdge,removeEdgeBySourcePort", "core/include/gnuradio-4.0/Port.hpp:resizeBuffer,connect,updateReaderInternal,disconnect", "core/include/gnuradio-4.0/BlockModel.hpp:hasSameSourcePort"]}
{"id": "C108", "title": "Every edge that can be connected is connected", "statement": "Connecting the pending edges of a graph connects exactly those whose ends exist and agree in type and kind, whatever becomes of the others; edges already decided are untouched; the result is true exactly if all pending ones were connected.", "quantifier": "all graphs and edge lists, enough memory", "why_tests_cant": "All combinations of failing and working edges.", "anchors": ["core/include/gnuradio-4.0/Graph.hpp:connectPendingEdges,applyEdgeConnection"]}
{"id": "C109", "title": "Buffers are as large as every edge asks", "statement": "A connected edge has a buffer of at least its minBufferSize, also with fan-out. (True for edges of an output connected together; false for an edge that joins a connected output.)", "quantifier": "all graphs, all sizes", "why_tests_cant": "All orders in which edges with different sizes appear.", "anchors": ["core/include/gnuradio-4.0/Graph.hpp:calculateStreamBufferSize,applyEdgeConnection"]}
{"id": "C110", "title": "No output is left without room", "statement": "Output ports of the blocks of a graph always have a real buffer once the graph has been connected, with or without an edge, so that they never hold up their block. (False after removing the edges of an output.)", "quantifier": "all graphs and edge lists", "why_tests_cant": "All graphs, all unconnected outputs.", "anchors": ["core/include/gnuradio-4.0/Graph.hpp:connectPendingEdges,removeEdgeBySourcePort", "core/include/gnuradio-4.0/Port.hpp:materialiseDefaultBuffer,disconnect"]}
{"id": "C111", "title": "Removing the edges of a port", "statement": "Removing edges by source port removes exactly the edges that start there, the port then reaches nobody, and all other connections stay. (Proved for connected edges; pending edges cannot be removed, or stay behind if given by index.)", "quantifier": "all graphs and edge lists", "why_tests_cant": "All mixtures of spellings and states.", "anchors": ["core/include/gnuradio-4.0/Graph.hpp:removeEdgeBySourcePort"]}
{"id": "C112", "title": "A refused work call changes nothing", "statement": "If a block's work call reports an error or too few items, nothing was published and nothing consumed, so the same data are offered again; if it reports OK, the reported amount is what was consumed (published, for a source). (True if the processing function leaves consuming and publishing to the block; an explicit consume before an error stands, and the tags at hand act on the settings again at every refused call.)", "quantifier": "all blocks, states, requests and numbers of calls", "why_tests_cant": "All processing functions and all sequences of refused calls.", "anchors": ["core/include/gnuradio-4.0/Block.hpp:workInternal,finaliseIO,applyInputTagsFromPorts", "core/include/gnuradio-4.0/WorkStatus.hpp:sanitiseProcessStatus,computePerformedWork"]}
{"id": "C113", "title": "Stored settings answer like a complete log", "statement": "Asking a block for the stored settings of a context, at the present or a later time, gives the values with the greatest time not after the asked one among everything ever stored for that context, although outdated entries are purged at every set. (Proved if no context gets two sets of values for the same time; otherwise the newer one can be lost.)", "quantifier": "all histories of set, activate, tags, staging, applying, reset and store-defaults operations; all contexts and query times", "why_tests_cant": "All histories and interleavings of past, present and future times.", "anchors": ["core/include/gnuradio-4.0/Settings.hpp:set,resetDefaults", "core/src/Settings.cpp:getBestMatchStoredParameters,addStoredParameters,removeExpiredStoredParameters"]}
{"id": "C114", "title": "Activating a context applies its values", "statement": "Activating a stored context and applying gives the block the values stored for it; members it does not mention keep theirs. (Proved with nothing pending; values set for the time of the already active entry are never applied, and pending staged values win over those of the context switched to.)", "quantifier": "all settings states, contexts and values", "why_tests_cant": "All states and combinations of pending, stored and tag-controlled names.", "anchors": ["core/src/Settings.cpp:activateContext", "core/include/gnuradio-4.0/Settings.hpp:applyStagedParameters"]}
{"id": "C115", "title": "Explicit settings survive tags", "statement": "A member set explicitly (at construction or by set and activate) has that value whenever settings have been applied, whatever tags arrive, until it is set again or reset. (A set that is not activated removes the protection: the next tag overwrites the explicit value.)", "quantifier": "all histories of sets, tags, staging of other names, resets and applications", "why_tests_cant": "Histories of any length with any tags.", "anchors": ["core/include/gnuradio-4.0/Settings.hpp:set,autoUpdate,resetDefaults,applyStagedParameters", "core/src/Settings.cpp:activateContext"]}
{"id": "C116", "title": "Tags set the other members", "statement": "A member never set explicitly takes the value of a tag that names it when settings are applied. (Proved if nothing is pending; of two tags before one application the later one is skipped if it repeats the value active before both.)", "quantifier": "all histories of sets, tags, staging, resets and applications, all tags", "why_tests_cant": "Histories of any length with any tags.", "anchors": ["core/include/gnuradio-4.0/Settings.hpp:autoUpdate,autoUpdateImpl,applyStagedParameters"]}
{"id": "C117", "title": "Reset restores the defaults", "statement": "resetDefaults gives every member that was set explicitly its default value at once and leaves nothing pending. (Members whose value came from a tag are not reset.)", "quantifier": "all histories before the reset", "why_tests_cant": "Histories of any length.", "anchors": ["core/include/gnuradio-4.0/Settings.hpp:resetDefaults", "core/src/Settings.cpp:activateContext"]}
{"id": "C118", "title": "Applying staged settings", "statement": "Applying changes exactly the members with a staged value of the right type that the member accepts, reports exactly these, forwards those whose name is forwarded, leaves nothing staged, and get returns the value of the member. (Values that are not accepted are forwarded, too.)", "quantifier": "all states and staged values; all histories for get", "why_tests_cant": "All states reachable by any history.", "anchors": ["core/include/gnuradio-4.0/Settings.hpp:applyStagedParameters,applyStagedImpl,updateActiveParameters"]}
{"id": "C119", "title": "Staging from another thread", "statement": "A value staged by another thread is the member's value after the next complete check-and-apply round. (Proved if no staging falls between taking over the staged values and clearing them, which happens outside the lock; in that window values are lost or stay staged with the changed flag cleared.)", "quantifier": "all interleavings of the two threads, all values", "why_tests_cant": "All interleavings.", "anchors": ["core/include/gnuradio-4.0/Settings.hpp:applyStagedParameters", "core/include/gnuradio-4.0/Block.hpp:applyChangedSettings", "core/src/Settings.cpp:setStaged"]}
{"id": "C120", "title": "Removing a context", "statement": "removeContext removes exactly the entry of the given context and time, refuses the default context and unknown entries without changing anything, and touches no other context. (Without a time nothing is removed; a context created again for the same time inherits which names were explicit in the removed one.)", "quantifier": "all settings states, contexts and times", "why_tests_cant": "All states.", "anchors": ["core/src/Settings.cpp:removeContext"]}
{"id": "C121", "title": "Expiry of stored settings", "statement": "With an expiry time the purge keeps of every context exactly the entries that have neither expired nor been superseded. (Proved without overflow of time plus expiry; after the active entry has expired, values set and activated are silently not applied.)", "quantifier": "all settings states, clock readings and expiry times", "why_tests_cant": "All states and times.", "anchors": ["core/src/Settings.cpp:removeExpiredStoredParameters"]}
{"id": "C122", "title": "Result of an activation", "statement": "activateContext returns the context active afterwards, or nothing and then nothing has changed; a name that is not stored is answered by the first stored name the matching rule accepts, attempt by attempt. (A rule that only answers no never ends.)", "quantifier": "all states, contexts, matching rules", "why_tests_cant": "All matching rules.", "anchors": ["core/src/Settings.cpp:activateContext,findBestMatchCtx,findBestMatchSettingsCtx"]}
{"id": "C123", "title": "YAML round trip", "statement": "A map of values serialized with type tags and deserialized again is the same map, at any depth: null, booleans, integers, floating-point and complex numbers that are written exactly, strings, maps, one-dimensional tensors of numbers, lists of values. Different maps have different texts. (Keys and block strings as in C124 and C125; no tensor of strings, C127.)", "quantifier": "all nested maps of such values, of any size and depth; all number formats that write these numbers exactly", "why_tests_cant": "Unbounded nesting, all byte strings and all keys.", "anchors": ["core/include/gnuradio-4.0/YamlPmt.hpp:serialize,deserialize,parseMap,parseList,parseScalar"]}
{"id": "C124", "title": "Strings survive", "statement": "A string value comes back byte for byte. (Proved for every string that is not written as a block of lines; a block string with a line of blanks, or with a backslash before 0, x or u, changes or makes the text unreadable.)", "quantifier": "all strings of bytes, all good keys", "why_tests_cant": "All byte strings.", "anchors": ["core/include/gnuradio-4.0/YamlPmt.hpp:serializeString,escapeString,resolveYamlEscapes_quoted,resolveYamlEscapes_multiline"]}
{"id": "C125", "title": "Keys survive", "statement": "A key comes back byte for byte. (Proved for keys with a colon or an unprintable byte, and for keys without '#', without a blank at either end, and without a leading dash, quote or bracket; the others change, vanish or make the text unreadable.)", "quantifier": "all keys", "why_tests_cant": "All byte strings.", "anchors": ["core/include/gnuradio-4.0/YamlPmt.hpp:serialize,parseKey"]}
{"id": "C126", "title": "Serializing without type tags", "statement": "A map serialized without type tags comes back with its strings. (Refuted: a string can come back as a number, as nothing, cut short, or as further entries of the map.)", "quantifier": "all maps", "why_tests_cant": "All strings.", "anchors": ["core/include/gnuradio-4.0/YamlPmt.hpp:serialize,parsePlainScalar"]}
{"id": "C127", "title": "Tensors of strings", "statement": "A tensor of strings comes back. (Refuted: no text is ever read as one, and its items are read as numbers, maps and lists.)", "quantifier": "all texts", "why_tests_cant": "All texts.", "anchors": ["core/include/gnuradio-4.0/YamlPmt.hpp:serialize,parseList"]}
{"id": "C128", "title": "Extents and digits", "statement": "Tensors come back with their extents and floating-point numbers with their value. (Refuted: extents are not written, and of two numbers written with the same six digits at most one comes back.)", "quantifier": "all number formats and pairs of finite numbers written alike", "why_tests_cant": "All pairs of numbers.", "anchors": ["core/include/gnuradio-4.0/YamlPmt.hpp:serialize"]}
{"id": "C129", "title": "Reading ends", "statement": "Deserializing any text ends, with a map or with an error; the number of steps is bounded by the length of the text.", "quantifier": "all texts", "why_tests_cant": "All texts.", "anchors": ["core/include/gnuradio-4.0/YamlPmt.hpp:deserialize,parseMap,parseList,parseFlow"]}
{"id": "C130", "title": "What is read is sound", "statement": "Whatever text is accepted, in the result the keys of every map differ, every integer lies in the range of its type, every item of a tensor has its type and the tensor has one dimension.", "quantifier": "all texts", "why_tests_cant": "All texts.", "anchors": ["core/include/gnuradio-4.0/YamlPmt.hpp:parseAs,ConvertList,parseMap,parseFlow"]}
{"id": "C131", "title": "Malformed texts are refused", "statement": "A text that is not well-formed is refused. (Refuted: text after a flow list or map is ignored, an incomplete hexadecimal escape and 0x-5 are accepted, any text after !!null is taken for null.)", "quantifier": "all texts", "why_tests_cant": "All texts.", "anchors": ["core/include/gnuradio-4.0/YamlPmt.hpp:parseFlow,parseMap,parseBytesFromHex,parseAs"]}
{"id": "C132", "title": "Quiescence excludes work", "statement": "While a thread holds the scheduler's work quiescence, no worker is inside a guarded section. (Proved when requests do not overlap; refuted for two overlapping requests: the first release lets the workers in.)", "quantifier": "any number of workers and requesting threads, all interleavings of their atomic accesses", "why_tests_cant": "Interleavings of any length.", "anchors": ["core/include/gnuradio-4.0/Scheduler.hpp:WorkQuiescenceGuard,WorkGuard,requestWorkQuiescence,releaseWorkQuiescence"]}
{"id": "C133", "title": "Quiescence is granted", "statement": "A request for quiescence is granted as soon as every worker has taken three more steps, in any order and whatever happened before: no worker entering in the meantime can delay it.", "quantifier": "any number of workers, all histories, all orders of the steps", "why_tests_cant": "All interleavings.", "anchors": ["core/include/gnuradio-4.0/Scheduler.hpp:WorkGuard,requestWorkQuiescence"]}
{"id": "C134", "title": "Messages are handled regularly", "statement": "A worker's loop handles messages at least once in ratio + 1 turns, and a busy worker exactly in every ratio-th turn (ratio from 2). (Refuted for ratio 0, which the setting accepts: division by zero.)", "quantifier": "all ratios, all sequences of turns", "why_tests_cant": "All ratios and unbounded loops.", "anchors": ["core/include/gnuradio-4.0/Scheduler.hpp:poolWorker,process_stream_to_message_ratio"]}
{"id": "C135", "title": "A stop is noticed", "statement": "After the state has left the active states a worker makes at most ratio + 1 more passes over its blocks and leaves within ratio + 1 turns; it works only while the state was RUNNING when last read; it leaves for no other reason than DONE, ERROR, an exchanged graph or an inactive state. (Refuted: stopped, initialised and started again between two reads, the old worker sees nothing and the restart waits for ever.)", "quantifier": "all ratios, all sequences of turns", "why_tests_cant": "Unbounded loops and races.", "anchors": ["core/include/gnuradio-4.0/Scheduler.hpp:poolWorker,start,waitDone"]}
{"id": "C136", "title": "What a pass reports", "statement": "One pass over a job list calls the blocks in order up to the first ERROR, reports the sum of the work performed (as a size_t), ERROR iff some block reports it, and DONE iff every block reports DONE.", "quantifier": "all lists of reports", "why_tests_cant": "All lists.", "anchors": ["core/include/gnuradio-4.0/Scheduler.hpp:traverseBlockListOnce"]}
{"id": "C137", "title": "Taken blocks are left alone", "statement": "A block grouped away from an active scheduler is never worked on, and its messages never handled, by that scheduler again, until it is handed back. (Refuted for a scheduler that is stopping.)", "quantifier": "all numbers of workers, all histories before and after", "why_tests_cant": "All interleavings of workers and edits.", "anchors": ["core/include/gnuradio-4.0/Scheduler.hpp:cleanupRemovedBlocks,propertyCallbackGroupBlocks"]}
{"id": "C138", "title": "One worker per block", "statement": "No block is handled by two workers at a time or twice by one, whatever is added, removed, grouped, ungrouped and exchanged; a worker handles only blocks of its published list. (Refuted for lists rebuilt before the old workers have left.)", "quantifier": "all numbers of workers, all histories whose callers wait for the workers", "why_tests_cant": "All interleavings of workers and edits.", "anchors": ["core/include/gnuradio-4.0/Scheduler.hpp:poolWorker,adoptBlock,adoptBlocks,_executionOrder"]}
{"id": "C139", "title": "The published list is handled", "statement": "A worker handles exactly the blocks of its published list. (Proved when blocks are taken away only while every worker is in its loop; refuted otherwise: a stale removal makes the worker drop a block that came back, for ever.)", "quantifier": "all histories", "why_tests_cant": "All interleavings.", "anchors": ["core/include/gnuradio-4.0/Scheduler.hpp:poolWorker,cleanupRemovedBlocks,propertyCallbackGroupBlocks"]}
{"id": "C140", "title": "An accepted block gets run", "statement": "A block accepted by an active scheduler is handled in the next message section of the worker it was given to. (Refuted: never when that worker has left, when the scheduler was not yet active, or when the block replaces another one.)", "quantifier": "all histories before, in between and afterwards", "why_tests_cant": "Unbounded futures.", "anchors": ["core/include/gnuradio-4.0/Scheduler.hpp:adoptBlock,adoptBlocks,propertyCallbackEmplaceBlock,propertyCallbackReplaceBlock"]}
{"id": "C141", "title": "Removed blocks are released", "statement": "A removed block is released in the next message section of its worker if it has stopped, asked to stop if it is paused, and kept otherwise; once released it is in no list and never touched again. (Refuted: removed while stopped and then reset, it is kept for ever.)", "quantifier": "all histories before and afterwards", "why_tests_cant": "Unbounded futures.", "anchors": ["core/include/gnuradio-4.0/Scheduler.hpp:makeZombie,cleanupZombieBlocks"]}
{"id": "C142", "title": "An exchanged graph is run", "statement": "After exchange, reset and start the workers' lists hold exactly the blocks of the new graph. (Refuted: exchanged between init and start, the old graph's blocks are run and the new ones never.)", "quantifier": "all histories before, all graphs", "why_tests_cant": "All histories.", "anchors": ["core/include/gnuradio-4.0/Scheduler.hpp:exchange,reset,start"]}
{"id": "C143", "title": "Children are heard", "statement": "Messages of the blocks reach the scheduler's own output once and in order. (Refuted when nobody listens: after capacity messages no send is accepted, and an error is thrown again on every later turn.)", "quantifier": "all capacities, all sequences of sends and forwards", "why_tests_cant": "Unbounded sequences.", "anchors": ["core/include/gnuradio-4.0/Scheduler.hpp:processScheduledMessages,_fromChildMessagePort"]}
{"id": "C144", "title": "Messages for the children are passed on", "statement": "Once every block has read its messages, the next message is passed on. (Refuted: one block that handles no messages stops the messages for all after capacity many.)", "quantifier": "all capacities, any number of children, all sequences", "why_tests_cant": "Unbounded sequences.", "anchors": ["core/include/gnuradio-4.0/Scheduler.hpp:processMessages,_toChildMessagePort"]}
{"id": "C145", "title": "Run blocks have their message ports connected", "statement": "Every block a worker handles has its message ports connected to the scheduler. (Proved for histories that begin with init and bring in blocks through the scheduler's own messages other than replace; refuted after exchange, after a block was added while stopped, after replace, and when the scheduler was stopped before init.)", "quantifier": "all such histories", "why_tests_cant": "All histories.", "anchors": ["core/include/gnuradio-4.0/Scheduler.hpp:connectBlockMessagePorts,init,reset"]}
{"id": "C146", "title": "Tasks are served by priority, then in order", "statement": "Among the waiting tasks of a pool the one of highest priority is served first, tasks of equal priority in the order they were given, and none is lost or repeated. (Proved for priorities below 2^31; refuted above: such a task is served last.)", "quantifier": "all sequences of pushes and pops, all priorities", "why_tests_cant": "All sequences.", "anchors": ["core/include/gnuradio-4.0/thread/thread_pool.hpp:TaskQueue::push,pop", "core/include/gnuradio-4.0/thread/thread_pool.hpp:createTask"]}
{"id": "C147", "title": "A task runs once", "statement": "A task given to execute is started at most once, and at any time is queued, held by one worker, started or dropped; nothing is dropped. (The last part is proved without shutdown and with a minimum of at least one thread; refuted for a minimum of 0 and for shutdown.)", "quantifier": "any number of workers and submitting threads, all interleavings, any bounds and changes of them", "why_tests_cant": "Interleavings of any length.", "anchors": ["core/include/gnuradio-4.0/thread/thread_pool.hpp:execute", "core/include/gnuradio-4.0/thread/thread_pool.hpp:worker", "core/include/gnuradio-4.0/thread/thread_pool.hpp:popTask"]}
{"id": "C148", "title": "The number of threads stays within the bounds", "statement": "numThreads is the number of live workers, at least minThreads and at most maxThreads. (With fixed bounds: the minimum is proved before shutdown; the maximum for one submitting thread, and maximum plus the other submitting threads in general; refuted for two submitting threads, and for a minimum raised by setThreadBounds, which creates no thread.)", "quantifier": "any number of submitting threads, all interleavings", "why_tests_cant": "Interleavings of any length.", "anchors": ["core/include/gnuradio-4.0/thread/thread_pool.hpp:createWorkerThread", "core/include/gnuradio-4.0/thread/thread_pool.hpp:execute", "core/include/gnuradio-4.0/thread/thread_pool.hpp:worker", "core/include/gnuradio-4.0/thread/thread_pool.hpp:setThreadBounds"]}
{"id": "C149", "title": "A queued task gets run", "statement": "The pool never deadlocks: from every reachable state its own workers can go on to start the first queued task; and a caller of execute returns only when the queue was empty or the pool full. A notification wakes a worker for the task. (The last part is refuted: it can come between a worker's look at the counter and its wait, so the task waits for the keep-alive timeout.)", "quantifier": "all reachable states without shutdown and with a minimum of at least 1", "why_tests_cant": "All reachable states of any number of threads.", "anchors": ["core/include/gnuradio-4.0/thread/thread_pool.hpp:worker", "core/include/gnuradio-4.0/thread/thread_pool.hpp:execute"]}
{"id": "C150", "title": "The counters tell the truth", "statement": "numTasksRunning is the number of functions being run and numTasksQueued the number of tasks queued or on their way; both are exact when the pool is at rest. (Refuted after a task was dropped: the counter never returns to zero, and no worker blocks any more.)", "quantifier": "all interleavings", "why_tests_cant": "Interleavings of any length.", "anchors": ["core/include/gnuradio-4.0/thread/thread_pool.hpp:numTasksRunning", "core/include/gnuradio-4.0/thread/thread_pool.hpp:numTasksQueued", "core/include/gnuradio-4.0/thread/thread_pool.hpp:worker"]}
{"id": "C151", "title": "Shutdown ends the workers", "statement": "After the shutdown flag is set every worker leaves after at most eight of its own accesses beyond the function it runs, whatever the others do. (Refuted: the notification can be lost and the worker sleeps until its timeout; requestShutdown followed by the destructor joins twice.)", "quantifier": "all interleavings; workers not in the compare-exchange loop", "why_tests_cant": "Interleavings of any length.", "anchors": ["core/include/gnuradio-4.0/thread/thread_pool.hpp:requestShutdown", "core/include/gnuradio-4.0/thread/thread_pool.hpp:~BasicThreadPool", "core/include/gnuradio-4.0/thread/thread_pool.hpp:worker"]}
{"id": "C152", "title": "The default pools fit the thread limit", "statement": "The default pools can be built iff the thread limit is at least 3; each has room for at least one thread, and above a limit of 5 their maxima add up to the limit less the reserve of 4.", "quantifier": "all limits, all hardware concurrencies", "why_tests_cant": "All values.", "anchors": ["core/include/gnuradio-4.0/thread/thread_pool.hpp:computeDefaultThreadSplit", "core/include/gnuradio-4.0/thread/thread_pool.hpp:Manager()"]}
{"id": "C153", "title": "Cores are divided among the workers", "statement": "Each enabled core of the affinity mask is given to exactly one of the first max(min,1) thread numbers and disabled cores to none, and every worker has a core. (The last part is refuted for workers created when min - 1 or more exist: their mask is empty.)", "quantifier": "all masks, all minima", "why_tests_cant": "All masks.", "anchors": ["core/include/gnuradio-4.0/thread/thread_pool.hpp:distributeThreadAffinityAcrossCores", "core/include/gnuradio-4.0/thread/thread_pool.hpp:createWorkerThread", "core/include/gnuradio-4.0/thread/thread_pool.hpp:updateThreadConstraints"]}
{"id": "C154", "title": "A block answers the messages meant for it", "statement": "A message for another block or an unknown property changes nothing and is not answered; a command the property does not take changes nothing and is answered by an error; a Get changes nothing and is answered with data (a context property needs the name of a context).", "quantifier": "all blocks, messages and settings states", "why_tests_cant": "All messages in all states.", "anchors": ["core/include/gnuradio-4.0/Block.hpp:processMessages", "core/src/Block.cpp:propertyCallback*"]}
{"id": "C155", "title": "Replies belong to their requests", "statement": "Every reply is a Final message of the block with the request's client identifier, endpoint, protocol and rbac, at most one per request and in their order; an accepted Set by a named client is confirmed. (The last part is proved for StagedSettings; refuted for Settings and UiConstraints, whose confirmation is dropped.)", "quantifier": "all sequences of messages, all bodies", "why_tests_cant": "All sequences.", "anchors": ["core/include/gnuradio-4.0/Block.hpp:processMessages", "core/src/Block.cpp:propertyCallbackSettings", "core/src/Block.cpp:propertyCallbackStagedSettings", "core/src/Block.cpp:propertyCallbackUiConstraints"]}
{"id": "C156", "title": "The last word on a subscription counts", "statement": "After any messages the clients subscribed to a property are exactly those whose last Subscribe or Unsubscribe for it was a Subscribe, and a notification sends each of them exactly one message and nobody else any.", "quantifier": "all sequences of messages", "why_tests_cant": "All sequences.", "anchors": ["core/include/gnuradio-4.0/Block.hpp:processMessages", "core/include/gnuradio-4.0/Block.hpp:notifyListeners", "core/src/Block.cpp:propertyCallback*"]}
{"id": "C157", "title": "Settings set by message are read back", "statement": "A Set by message followed by the application of the settings makes the field and a later Get show the converted value; a refused Set changes nothing. (The last part is refuted: a Set refused for an unknown name has set the known ones.)", "quantifier": "all blocks, all bodies with convertible values", "why_tests_cant": "All bodies.", "anchors": ["core/src/Block.cpp:propertyCallbackSettings", "core/src/Block.cpp:propertyCallbackStagedSettings", "core/include/gnuradio-4.0/Block.hpp:applyChangedSettings"]}
{"id": "C158", "title": "Lifecycle by message", "statement": "A state asked for by message is taken along the edges of the documented diagram; a refused request leaves the block unchanged and is answered by an error; a failing user method leads to ERROR and an error reply; Get reports the state; a successful request is confirmed. (The last part is refuted: never; and the documented stop during a pending pause is refused.)", "quantifier": "all states, requests and user methods", "why_tests_cant": "All states and requests.", "anchors": ["core/src/Block.cpp:propertyCallbackLifecycleState", "core/include/gnuradio-4.0/LifeCycle.hpp:changeStateTo"]}
{"id": "C159", "title": "Contexts by message", "statement": "Values stored by message for a new context are returned by a Get for that context at that time or later, laid over the defaults; a Get that lists parameters is answered with exactly those; the default context cannot be removed; a malformed request is answered by an error. (The last part is refuted: a time or parameters of another type are passed over without an error, and so is the Get of a context that does not exist.)", "quantifier": "all blocks, contexts, times and values without expiry", "why_tests_cant": "All values and times.", "anchors": ["core/src/Block.cpp:propertyCallbackSettingsCtx", "core/include/gnuradio-4.0/Settings.hpp:set"]}
{"id": "C160", "title": "A message is handled once", "statement": "With room for the replies every waiting message is handled exactly once, in order, and removed from the input; without room none is handled twice. (The last part is refuted: the messages handled before the exception are all given back; of two requests with room for one reply per round the second is never answered, for a caller that goes on after the exception.)", "quantifier": "all inboxes, any number of rounds", "why_tests_cant": "Any number of messages and rounds.", "anchors": ["core/include/gnuradio-4.0/Block.hpp:processScheduledMessages", "core/include/gnuradio-4.0/Block.hpp:processMessages", "core/include/gnuradio-4.0/CircularBuffer.hpp:~ReaderSpan"]}
{"id": "C161", "title": "Subscribers are told", "statement": "When changed settings are applied every Settings subscriber gets exactly one message with the active settings and every StagedSettings subscriber one with the values applied if there are any; nothing is sent when nothing changed; every accepted subscription is served, and every change of settings is told. (The last two are refuted: subscribers of LifecycleState, MetaInformation and UiConstraints are never notified in any history, and ResetDefaults changes settings silently.)", "quantifier": "all histories of messages, applications and state changes", "why_tests_cant": "All histories.", "anchors": ["core/include/gnuradio-4.0/Block.hpp:applyChangedSettings", "core/include/gnuradio-4.0/Block.hpp:notifyListeners", "core/src/Block.cpp:propertyCallbackResetDefaults"]}
{"id": "C162", "title": "The selector routes what it consumes", "statement": "Without synchronisation each output receives exactly the samples consumed from the inputs mapped to it, input after input, with the tags that sit on them and within its room; an output with one input carries that input's stream over any number of calls, in both modes, without loss, repetition or reordering.", "quantifier": "all mappings, calls, samples and tags; any number of calls", "why_tests_cant": "All mappings and sequences.", "anchors": ["blocks/basic/include/gnuradio-4.0/basic/Selector.hpp:processBulk", "blocks/basic/include/gnuradio-4.0/basic/Selector.hpp:copyRange"]}
{"id": "C163", "title": "The selector stops an input only for a full output", "statement": "Without synchronisation a mapped input is left with samples only if one of its outputs is full or it is the selected one and the monitor is full.", "quantifier": "all mappings and calls", "why_tests_cant": "All mappings and fill levels.", "anchors": ["blocks/basic/include/gnuradio-4.0/basic/Selector.hpp:processBulk"]}
{"id": "C164", "title": "A combined output takes its inputs in turn", "statement": "With synchronisation an output with several inputs carries one sample of each in turn, and exactly those samples are consumed. (Proved if every combined output is linked to input 0; refuted otherwise: the number of rounds is always that of input 0, so samples are lost or the spans are left.)", "quantifier": "all mappings and calls with synchronisation", "why_tests_cant": "All mappings.", "anchors": ["blocks/basic/include/gnuradio-4.0/basic/Selector.hpp:processBulk"]}
{"id": "C165", "title": "Linked inputs advance together", "statement": "With synchronisation the levelling of the counts ends for every mapping; inputs linked by common outputs are consumed equally, within every limit and as far as the limits allow.", "quantifier": "all mappings and calls", "why_tests_cant": "A fixed point over arbitrary mappings.", "anchors": ["blocks/basic/include/gnuradio-4.0/basic/Selector.hpp:processBulk"]}
{"id": "C166", "title": "The monitor follows the selected input", "statement": "The monitor output shows exactly what is consumed of the input chosen on the select port. (Proved for the call that reads the choice; refuted for later calls, which forget it, and without a mapping, where the select port is never read.)", "quantifier": "all calls and choices", "why_tests_cant": "All calls.", "anchors": ["blocks/basic/include/gnuradio-4.0/basic/Selector.hpp:processBulk"]}
{"id": "C167", "title": "Inputs without an output", "statement": "An input mapped nowhere is read to its end, or not at all if back_pressure is set; if it is selected the room of the monitor is the limit.", "quantifier": "all mappings and calls", "why_tests_cant": "All mappings.", "anchors": ["blocks/basic/include/gnuradio-4.0/basic/Selector.hpp:processBulk"]}
{"id": "C168", "title": "The mapping is checked", "statement": "An accepted mapping has lists of equal length, existing ports and no pair twice; a refused mapping has no effect and a smaller number of inputs is checked against the mapping. (The last two are refuted: the refused pair stays in the maps, and every later call leaves the spans.)", "quantifier": "all settings", "why_tests_cant": "All settings.", "anchors": ["blocks/basic/include/gnuradio-4.0/basic/Selector.hpp:settingsChanged"]}
{"id": "C169", "title": "Synchronised outputs advance together", "statement": "Every call of the synchronising block publishes the same number of samples on every output, within the room of each; over any run all outputs have carried equally many samples.", "quantifier": "all inputs, tags, settings and runs", "why_tests_cant": "Any number of calls.", "anchors": ["blocks/basic/include/gnuradio-4.0/basic/SyncBlock.hpp:processBulk"]}
{"id": "C170", "title": "Outputs are aligned on the earliest common trigger", "statement": "If the inputs have trigger times in common within the tolerance, the call aligns them on the earliest: the samples with triggers of that time have the same position on every output, and only triggers that pass the filter count. (The part about the filter is proved if every tag close to the time passes it, and refuted otherwise; refuted too for a tolerance of zero, which never aligns anything, and for the largest time.)", "quantifier": "all inputs, tags and settings", "why_tests_cant": "All placements of tags and times.", "anchors": ["blocks/basic/include/gnuradio-4.0/basic/SyncBlock.hpp:synchronize", "blocks/basic/include/gnuradio-4.0/basic/SyncBlock.hpp:findSyncTime", "blocks/basic/include/gnuradio-4.0/basic/SyncBlock.hpp:processBulk"]}
{"id": "C171", "title": "Dropped samples are reported exactly and in place", "statement": "The sample at position p of an output is the input's sample at p plus what the reports up to p add up to, and all reports with what is pending are the samples skipped. (Proved below 2^32 skipped samples; refuted at 2^32, reported as 0.)", "quantifier": "all runs of any length", "why_tests_cant": "Any number of calls.", "anchors": ["blocks/basic/include/gnuradio-4.0/basic/SyncBlock.hpp:publishDroppedSamplesTagIfNotZero", "blocks/basic/include/gnuradio-4.0/basic/SyncBlock.hpp:processBulk"]}
{"id": "C172", "title": "Tags travel with their samples", "statement": "Each published sample carries exactly the maps that sat on it at the input, and no map is published elsewhere.", "quantifier": "all calls", "why_tests_cant": "All placements of tags.", "anchors": ["blocks/basic/include/gnuradio-4.0/basic/SyncBlock.hpp:publishInputTags"]}
{"id": "C173", "title": "Samples are given up only when streams do not fit together", "statement": "Before the first common trigger nothing is published and each input keeps its last max_history_size samples; in synchronised streams the samples in front of the next trigger are passed on without loss; a synchronised stream loses samples only for want of a common trigger. (The last part is refuted: a full output makes a synchronised stream lose samples and its synchronisation.)", "quantifier": "all calls and states", "why_tests_cant": "All states and fill levels.", "anchors": ["blocks/basic/include/gnuradio-4.0/basic/SyncBlock.hpp:processBulk"]}
{"id": "C174", "title": "An aligned block holds no other trigger", "statement": "An aligned block ends before the next trigger of every input and not earlier than an output, an input or a trigger demands, and begins behind the previous trigger. (The last part is proved with at most one trigger before the common one; refuted with two.)", "quantifier": "all inputs, tags and settings", "why_tests_cant": "All placements of tags.", "anchors": ["blocks/basic/include/gnuradio-4.0/basic/SyncBlock.hpp:getAvailablePreSamples", "blocks/basic/include/gnuradio-4.0/basic/SyncBlock.hpp:getAvailablePostSamples"]}
{"id": "C175", "title": "Data sets hold exactly their ranges", "statement": "StreamToDataSet publishes one data set per ended range, in the order of the starts, also for overlapping ranges: n_pre samples in front of the start, the range and n_post samples more, at most n_max, with exactly the tags of these samples at their index and time zero at the start. How the stream is cut into calls and how much room there is does not matter.", "quantifier": "all filters with names that differ, settings, streams, tags, cuts and fill levels; any number of calls with at least one sample", "why_tests_cant": "All placements of tags and all cuts.", "anchors": ["blocks/basic/include/gnuradio-4.0/basic/StreamToDataSet.hpp:processBulkDataSet", "blocks/basic/include/gnuradio-4.0/basic/StreamToDataSet.hpp:findFirstTriggerTag", "blocks/basic/include/gnuradio-4.0/basic/StreamToDataSet.hpp:updateHistory"]}
{"id": "C176", "title": "No data set is held back", "statement": "A call consumes its whole span, or nothing if the output is full and a finished data set waits; after a call the next data set in line is not due or the room is used up. (With n_max the due time is proved one call late, and the prompt version is refuted: a data set that reached n_max is published by the next call only.)", "quantifier": "all runs", "why_tests_cant": "All runs and fill levels.", "anchors": ["blocks/basic/include/gnuradio-4.0/basic/StreamToDataSet.hpp:processBulkDataSet"]}
{"id": "C177", "title": "The merged tag is complete", "statement": "Every tag of every consumed sample goes into exactly one merged auto-forward tag, in order, which is published with the next data set.", "quantifier": "all runs", "why_tests_cant": "All runs.", "anchors": ["blocks/basic/include/gnuradio-4.0/basic/StreamToDataSet.hpp:updateHistory", "blocks/basic/include/gnuradio-4.0/basic/StreamToDataSet.hpp:publishMergedAutoForwardTag"]}
{"id": "C178", "title": "Calls without samples change nothing", "statement": "A call of StreamToDataSet with an empty span has no effect on the data sets. (Refuted: the output is asynchronous, so the block is called with an empty span whenever no sample is there; every data set that waits for its n_post samples is then published without them. Proved outside of that phase.)", "quantifier": "all states", "why_tests_cant": "Depends on the timing of the scheduler.", "anchors": ["blocks/basic/include/gnuradio-4.0/basic/StreamToDataSet.hpp:processBulkDataSet", "core/include/gnuradio-4.0/Block.hpp:workInternal"]}
{"id": "C179", "title": "Integers are read in the base they are written in", "statement": "The YAML reader takes a text for an integer of a type exactly if it is, without surrounding space, one of the prefixes 0x, 0o, 0b or none, a minus sign for signed types, and digits of that base with a value that fits; it is the positional value.", "quantifier": "all texts and integer types", "why_tests_cant": "All texts.", "anchors": ["core/include/gnuradio-4.0/YamlPmt.hpp:parseAs"]}
{"id": "C180", "title": "The stream filter passes on its ranges, however it is called", "statement": "StreamFilter publishes, for ranges far enough apart, the n_pre samples in front of the start, the range and n_post samples more, and nothing else. In general, however the stream is cut into calls (empty ones too) and whatever the room, samples and tags published are those of a machine that looks at one sample after the other; a call with more room than n_pre makes progress. (For samples that do not both start and stop, and for one-sided filters with n_post > 0 or n_pre = 0; see C182.)", "quantifier": "all filters, streams, tags, settings, cuts and fill levels; any number of calls", "why_tests_cant": "All placements of tags, all cuts and all fill levels.", "anchors": ["blocks/basic/include/gnuradio-4.0/basic/StreamToDataSet.hpp:processBulkStream", "blocks/basic/include/gnuradio-4.0/basic/StreamToDataSet.hpp:updateHistory", "blocks/basic/include/gnuradio-4.0/basic/StreamToDataSet.hpp:findFirstTriggerTag"]}
{"id": "C181", "title": "The stream filter keeps every tag", "statement": "Each tag of a consumed sample is published exactly once, in order, or waits: as a tag of its own on a copy of its sample, or in a merged tag on a published sample.", "quantifier": "all runs as in C180", "why_tests_cant": "All runs.", "anchors": ["blocks/basic/include/gnuradio-4.0/basic/StreamToDataSet.hpp:processBulkStream", "blocks/basic/include/gnuradio-4.0/basic/StreamToDataSet.hpp:updateHistory", "blocks/basic/include/gnuradio-4.0/basic/StreamToDataSet.hpp:publishMergedAutoForwardTag"]}
{"id": "C182", "title": "Without conditions on tags and settings", "statement": "The two properties above hold for every stream and setting, and every range from a start to a stop is passed on. (Refuted: a start among the n_post samples of the former range makes the next range vanish; with a start and a stop on one sample the result depends on the room; with one name and n_post = 0 the trigger's tag is lost and an empty call repeats samples.)", "quantifier": "all streams and settings", "why_tests_cant": "Depends on the fill level of the output and on rare placements of tags.", "anchors": ["blocks/basic/include/gnuradio-4.0/basic/StreamToDataSet.hpp:processBulkStream"]}
{"id": "C183", "title": "A streaming poller gets the stream or knows what it missed", "statement": "The samples handed to the handler of a StreamingPoller, followed by those still queued, are the concatenation of one prefix of each call of the sink; with backpressure of the whole calls. Handed over, waiting and counted as dropped add up to what the sink consumed; the queues never exceed their size; a call waiting for room can end once the queue was emptied.", "quantifier": "all interleavings of sink, settings changes and poller; all queue sizes, data and limits", "why_tests_cant": "All interleavings of producer and consumer at the level of claim and publish.", "anchors": ["blocks/basic/include/gnuradio-4.0/basic/DataSink.hpp:StreamingPoller", "blocks/basic/include/gnuradio-4.0/basic/DataSink.hpp:ContinuousListener"]}
{"id": "C184", "title": "A streaming poller gets each tag with its sample", "statement": "If the handler takes tags, every tag of a queued sample for which there is room is handed over exactly once, in order, in the chunk of its sample and at its index; the description of the signal comes on the first sample after a change. droppedTagCount counts the tags that are never delivered. (Refuted: tags of dropped samples are not counted; a description that is delivered later is counted; a handler without tags discards the tags of samples not yet read.)", "quantifier": "all interleavings, data, tags in order, queue sizes", "why_tests_cant": "All interleavings and fill levels of two queues.", "anchors": ["blocks/basic/include/gnuradio-4.0/basic/DataSink.hpp:StreamingPoller", "blocks/basic/include/gnuradio-4.0/basic/DataSink.hpp:ContinuousListener"]}
{"id": "C185", "title": "process hands over between the minimum and the maximum", "statement": "StreamingPoller::process calls the handler iff at least minRequiredSamples are there, with no more than maxRequiredSamples and no more than asked for (but the minimum), the oldest ones, and leaves the others in place. Everything the sink consumed can be fetched. (Refuted: what is left below the minimum after the end can never be fetched.)", "quantifier": "all states, requests and limits", "why_tests_cant": "All states and requests.", "anchors": ["blocks/basic/include/gnuradio-4.0/basic/DataSink.hpp:StreamingPoller"]}
{"id": "C186", "title": "A streaming callback is given the stream in chunks", "statement": "The chunks given to the callback concatenate to the call's data, none is empty or larger than maxChunkSize, each tag of the call comes once, in the chunk of its sample, at its index, and a pending description comes once, on the first sample.", "quantifier": "all data, tags in order, chunk sizes", "why_tests_cant": "All cuts and positions.", "anchors": ["blocks/basic/include/gnuradio-4.0/basic/DataSink.hpp:ContinuousListener"]}
{"id": "C187", "title": "Each trigger gives one data set with the samples around it", "statement": "However the stream is cut into calls, each matching tag gives exactly one data set, in order: what there is of the preSamples in front and postSamples from it on, with the trigger at its index; when the sink stops, open ones give what there is. The samples in front are the last ones of the stream. (Refuted: registering a listener with more preSamples reverses the remembered samples.)", "quantifier": "all matchers with state, streams, cuts and settings", "why_tests_cant": "All streams, overlaps and cuts.", "anchors": ["blocks/basic/include/gnuradio-4.0/basic/DataSink.hpp:TriggerListener", "blocks/basic/include/gnuradio-4.0/basic/DataSink.hpp:ensureHistorySize"]}
{"id": "C188", "title": "A multiplexed listener gives the ranges between its tags", "statement": "However the stream is cut into calls, the data sets are the ranges from each start to the next start or stop, cut at maximumWindowSize, with the events that began and ended them.", "quantifier": "all matchers with state, streams, cuts and sizes", "why_tests_cant": "All streams and cuts.", "anchors": ["blocks/basic/include/gnuradio-4.0/basic/DataSink.hpp:MultiplexedListener"]}
{"id": "C189", "title": "A snapshot is the sample at the delay after its trigger", "statement": "However the stream is cut into calls, each matching tag gives one data set with the sample the delay later, once that sample is there, in order.", "quantifier": "all matchers with state, streams, cuts and delays", "why_tests_cant": "All streams and cuts.", "anchors": ["blocks/basic/include/gnuradio-4.0/basic/DataSink.hpp:SnapshotListener"]}
{"id": "C190", "title": "The queue of data sets keeps order and counts", "statement": "What a DataSetPoller handed over and holds is a subsequence of the data sets offered; with those counted as dropped it adds up; with backpressure nothing is missing; each handler call gets at least the minimum.", "quantifier": "all interleavings, sizes and limits", "why_tests_cant": "All interleavings.", "anchors": ["blocks/basic/include/gnuradio-4.0/basic/DataSink.hpp:DataSetPoller"]}
{"id": "C191", "title": "A sink is found by the name of its signal", "statement": "If no registration or renaming is refused and only registered sinks are stopped, a lookup by signal name and type gives exactly the registered sink with that name and type, and names are unique. Refusals and stops harm no other sink. (Refuted: stopping a sink while one of another type is registered ends the process; stopping a sink whose name was refused removes the one that has it; such a sink is never registered by renaming; a refused renaming leaves the old name behind after the sink is gone.)", "quantifier": "all histories of settings changes and stops, any number of sinks and types", "why_tests_cant": "All histories.", "anchors": ["blocks/basic/include/gnuradio-4.0/basic/DataSink.hpp:DataSinkRegistry", "blocks/basic/include/gnuradio-4.0/basic/DataSink.hpp:settingsChanged", "blocks/basic/include/gnuradio-4.0/basic/DataSink.hpp:stop"]}
{"id": "C192", "title": "Each index tuple of a tensor is one element", "statement": "at() with one index per dimension returns iff every index is below its extent and then refers to the element whose number is the place of the tuple among all tuples, last index fastest; so tuples and elements correspond one to one. One index counts elements; any other number throws.", "quantifier": "all ranks, extents and index tuples", "why_tests_cant": "All ranks, extents and indices.", "anchors": ["core/include/gnuradio-4.0/Tensor.hpp:at", "core/include/gnuradio-4.0/Tensor.hpp:index_of", "core/include/gnuradio-4.0/Tensor.hpp:bounds_check", "core/include/gnuradio-4.0/Tensor.hpp:recomputeStrides"]}
{"id": "C193", "title": "Iteration gives every element once, in row-major order", "statement": "From begin() to end() a tensor or view gives the elements of all index tuples, last index fastest, whatever its strides; two tensors or views compare equal iff extents and all elements are equal.", "quantifier": "all ranks, extents, strides and offsets", "why_tests_cant": "All ranks, extents and strides.", "anchors": ["core/include/gnuradio-4.0/Tensor.hpp:strided_iterator", "core/include/gnuradio-4.0/Tensor.hpp:operator=="]}
{"id": "C194", "title": "Slices and transpositions refer to the right elements", "statement": "Element idx of slice(ranges) is element start + idx of the tensor, and its tuples are those inside the ranges; element idx of transpose() is element rev idx; of transpose(axes) axis i is axis axes[i]. Views of views as well.", "quantifier": "all views, ranges within the extents, permutations", "why_tests_cant": "All ranks and compositions.", "anchors": ["core/include/gnuradio-4.0/Tensor.hpp:slice", "core/include/gnuradio-4.0/Tensor.hpp:transpose"]}
{"id": "C195", "title": "Reshaping and copying keep the elements", "statement": "reshape succeeds iff the number of elements is the same and keeps elements and order; a conversion to an owning tensor has the same element at each index tuple. (Refuted for views that are not contiguous: reshape then shows other elements or another order.)", "quantifier": "all views and extents", "why_tests_cant": "All views.", "anchors": ["core/include/gnuradio-4.0/Tensor.hpp:reshape", "core/include/gnuradio-4.0/Tensor.hpp:is_contiguous", "core/include/gnuradio-4.0/Tensor.hpp:owned"]}
{"id": "C196", "title": "One index and fill mean the elements of the view", "statement": "at(k) of a view is the k-th element that iteration gives; fill writes the elements of the view and no others. (Holds for contiguous views; refuted for others: at(k) counts memory cells, fill overwrites elements outside of a slice and leaves some inside.)", "quantifier": "all views", "why_tests_cant": "All views.", "anchors": ["core/include/gnuradio-4.0/Tensor.hpp:at", "core/include/gnuradio-4.0/Tensor.hpp:operator[]", "core/include/gnuradio-4.0/Tensor.hpp:fill"]}
{"id": "C197", "title": "Resizing", "statement": "resize gives the new extents with every element the given value; resize_dim keeps the elements whose tuple fits both; if it throws, the tensor is as before. (Proved for resize and for the first dimension; refuted for other dimensions and for a throw, after which at() lets tuples outside of the memory pass.)", "quantifier": "all tensors, dimensions and extents", "why_tests_cant": "All extents, including products beyond the largest size.", "anchors": ["core/include/gnuradio-4.0/Tensor.hpp:resize", "core/include/gnuradio-4.0/Tensor.hpp:resize_dim"]}
{"id": "C198", "title": "The number of elements", "statement": "product gives the number of index tuples and throws iff that exceeds the largest size. (Refuted with an extent 0: whether it throws depends on the order of the extents.)", "quantifier": "all extents", "why_tests_cant": "Needs extents near the largest size.", "anchors": ["core/include/gnuradio-4.0/Tensor.hpp:product"]}
{"id": "C199", "title": "A merged block is the two blocks connected", "statement": "Over every stream, MergeByIndex gives the left block's unconnected outputs followed by what the right block gives when the connected output, sample by sample, takes the place of its input InId, with both blocks ending in the state they have alone; chains may be merged in either order and called in pieces.", "quantifier": "all blocks, states, numbers of ports, nestings, streams", "why_tests_cant": "Any blocks with any state and any stream.", "anchors": ["core/include/gnuradio-4.0/BlockMerging.hpp:MergeByIndex", "core/include/gnuradio-4.0/BlockMerging.hpp:processOne", "core/include/gnuradio-4.0/BlockMerging.hpp:apply_left", "core/include/gnuradio-4.0/BlockMerging.hpp:apply_right"]}
{"id": "C200", "title": "graph() of a merged block shows what it computes", "statement": "For every nesting of MergeByIndex, the graph of inner blocks, edges and outer ports, evaluated as connected blocks, has exactly one solution for each sample, and its outer outputs and new states are those of processOne.", "quantifier": "all nestings, blocks, states and samples", "why_tests_cant": "Any depth and shape of nesting.", "anchors": ["core/include/gnuradio-4.0/BlockMerging.hpp:graphWithPortMaps", "core/include/gnuradio-4.0/BlockMerging.hpp:addSubBlock"]}
{"id": "C201", "title": "A feedback merge is a loop with one sample of delay", "statement": "The output, and with a tap the feedback, are the only streams for which the forward block runs on the inputs with the feedback of the previous sample (first: the start value) at the given port and the feedback block on the monitored output; later inputs do not change earlier outputs.", "quantifier": "all blocks, states, port numbers and streams", "why_tests_cant": "Any blocks and any stream.", "anchors": ["core/include/gnuradio-4.0/BlockMerging.hpp:FeedbackMergeBase", "core/include/gnuradio-4.0/BlockMerging.hpp:FeedbackMergeWithTapByIndex"]}
{"id": "C202", "title": "A split and merge adds its paths", "statement": "Each output sample of SplitMergeCombine is the sum over the paths of sign times what the path gives when run alone over the input; a path without a sign counts with 1, a sign without a path not at all.", "quantifier": "all numbers of paths and signs, all streams", "why_tests_cant": "Any paths and any stream.", "anchors": ["core/include/gnuradio-4.0/BlockMerging.hpp:SplitMergeCombine", "core/include/gnuradio-4.0/BlockMerging.hpp:signOf"]}
{"id": "C203", "title": "The Schmitt trigger reports the changes of side", "statement": "A sample has an edge iff it changes the side of the newest sample at or beyond a threshold; edges alternate, a rising one first; samples between the thresholds give none; lastEdgeIdx is minus the number of samples since the last edge; a constant signal gives at most one edge. (The last refuted for threshold 0.)", "quantifier": "all thresholds, offsets and signals", "why_tests_cant": "All signals.", "anchors": ["algorithm/include/gnuradio-4.0/algorithm/SchmittTrigger.hpp:processOne", "algorithm/include/gnuradio-4.0/algorithm/SchmittTrigger.hpp:SchmittTrigger"]}
{"id": "C204", "title": "All interpolation methods detect the same edges", "statement": "The edges detected with interpolation are those without. (Proved for basic interpolation, and for regression and smoothing if the signal starts at or below the lower threshold; refuted for a signal that starts between the thresholds, whose first edge is missed; lastEdgeIdx does not grow older with these methods.)", "quantifier": "all thresholds, offsets, signals and fits", "why_tests_cant": "All signals.", "anchors": ["algorithm/include/gnuradio-4.0/algorithm/SchmittTrigger.hpp:processOne", "algorithm/include/gnuradio-4.0/algorithm/SchmittTrigger.hpp:findCrossingIndexLinearRegression"]}
{"id": "C205", "title": "Basic interpolation finds the nearest sample", "statement": "The position is within half a sample of where the line through the last two samples meets the offset, and is one of these two samples if the offset lies between them. (Refuted if it does not: the position may lie any distance before the stream.)", "quantifier": "all pairs of samples and offsets", "why_tests_cant": "All pairs.", "anchors": ["algorithm/include/gnuradio-4.0/algorithm/SchmittTrigger.hpp:processOne"]}
{"id": "C206", "title": "The trigger block does not depend on how the stream is cut", "statement": "For every sequence of calls, the block publishes a prefix of the stream, every sample passes the trigger once, the tags are the named edges of the prefix at their samples and times, and the time counts the samples. (Proved without interpolation; refuted with basic interpolation: an edge is lost or reported depending on the cut, and samples behind an edge count twice.)", "quantifier": "all streams, cuts, rooms and names", "why_tests_cant": "All ways to cut all streams.", "anchors": ["blocks/basic/include/gnuradio-4.0/basic/Trigger.hpp:processBulk"]}
{"id": "C207", "title": "A graph saved and loaded is the same graph", "statement": "Loading what was saved gives the same blocks with type, name, settings and context settings in the same order, and edges with the same ends, ports and buffer sizes. (Proved for blocks of different names and sizes below 2^32; refuted for weights and names of edges and for larger sizes.)", "quantifier": "all graphs without sub-graphs", "why_tests_cant": "All graphs.", "anchors": ["core/include/gnuradio-4.0/Graph_yaml_importer.hpp:saveGraphToMap", "core/include/gnuradio-4.0/Graph_yaml_importer.hpp:loadGraphFromMap"]}
{"id": "C208", "title": "Edges come back to their blocks", "statement": "A loaded edge joins the blocks it joined when it was saved. (Proved: it joins the last blocks of these names; refuted for every edge from a block followed by another of the same name, and the type name is the default name.)", "quantifier": "all graphs without sub-graphs, whatever the names", "why_tests_cant": "All graphs.", "anchors": ["core/include/gnuradio-4.0/Graph_yaml_importer.hpp:loadGraphFromMap"]}
{"id": "C209", "title": "A saved sub-graph can be loaded", "statement": "A graph with sub-graphs can be loaded from what was saved. (Refuted for every such graph: no parameters are saved for it; and for every exported port, saved with three fields of which the last is a map, read as four strings.)", "quantifier": "all graphs with a sub-graph, all exported ports", "why_tests_cant": "All graphs.", "anchors": ["core/src/BlockModel.cpp:serializeBlock", "core/include/gnuradio-4.0/Graph_yaml_importer.hpp:loadGraphFromMap"]}
{"id": "C210", "title": "A document is loaded as written or not at all", "statement": "A loaded document has a block for every entry with its name, type and settings, an edge for every connection with the ends, ports and size written, or the default size; connections that name blocks and ports are accepted and all others refused. (Refuted for negative sizes, which are accepted.)", "quantifier": "all documents", "why_tests_cant": "All documents.", "anchors": ["core/include/gnuradio-4.0/Graph_yaml_importer.hpp:loadGraphFromMap", "core/include/gnuradio-4.0/Graph_yaml_importer.hpp:getProperty"]}
{"id": "C211", "title": "Corrupted GPS lines are ignored", "statement": "A line with a wrong byte between $ and the checksum changes nothing and hands over nothing; accepted lines are exactly characterised. (Refuted for a wrong star, which turns the line into one without checksum, and for a second checksum character that is no digit.)", "quantifier": "all lines, all wrong bytes at all places", "why_tests_cant": "All lines.", "anchors": ["blocks/timing/include/gnuradio-4.0/NMEAParser.hpp:validateNMEAChecksum", "blocks/timing/include/gnuradio-4.0/NMEAParser.hpp:parseLine"]}
{"id": "C212", "title": "Fields are the texts between commas", "statement": "splitNMEAFields returns the one list of texts without commas which joined with commas is the line.", "quantifier": "all lines", "why_tests_cant": "All lines.", "anchors": ["blocks/timing/include/gnuradio-4.0/NMEAParser.hpp:splitNMEAFields"]}
{"id": "C213", "title": "One fix per second, of this second's sentences", "statement": "A fix is handed over exactly when a sentence has another second than the last one with a time; it depends only on the lines since the last such change and on the date known before. (Refuted for sentences whole minutes apart: the seconds agree and nothing is handed over.)", "quantifier": "all sequences of lines and times of arrival", "why_tests_cant": "All sequences.", "anchors": ["blocks/timing/include/gnuradio-4.0/NMEAParser.hpp:checkPpsBoundary", "blocks/timing/include/gnuradio-4.0/NMEAParser.hpp:parseLine"]}
{"id": "C214", "title": "What a fix says it has, it has", "statement": "A fix has a position iff one of its sentences has; a fix with a time has that time and the known date. (Position proved; refuted for the time, which may be 0, and the date, which a valid sentence without date loses.)", "quantifier": "all sequences of lines within a second", "why_tests_cant": "All sequences.", "anchors": ["blocks/timing/include/gnuradio-4.0/NMEAParser.hpp:parseRMC", "blocks/timing/include/gnuradio-4.0/NMEAParser.hpp:parseGGA"]}
{"id": "C215", "title": "Gains asked for one by one are those of a span", "statement": "After any calls without force, n calls of processOne give the gains and the state of one span of n samples. (Refuted with force: for every ramp a single sample at full level is silenced.)", "quantifier": "all symmetric ramps, all sequences of calls, all n", "why_tests_cant": "All sequences.", "anchors": ["algorithm/include/gnuradio-4.0/algorithm/BurstTaper.hpp:processOne", "algorithm/include/gnuradio-4.0/algorithm/BurstTaper.hpp:applyBulk"]}
{"id": "C216", "title": "Cutting samples into spans does not show", "statement": "After any calls, forced or not, any cut of the following samples gives the same gains and the same state, and every sample gets one gain.", "quantifier": "all symmetric ramps, all sequences of calls, all cuts", "why_tests_cant": "All cuts at all positions of a ramp.", "anchors": ["algorithm/include/gnuradio-4.0/algorithm/BurstTaper.hpp:applyTo", "algorithm/include/gnuradio-4.0/algorithm/BurstTaper.hpp:applyInPlace", "algorithm/include/gnuradio-4.0/algorithm/BurstTaper.hpp:applyRamp"]}
{"id": "C217", "title": "No clicks", "statement": "If no step of the ramp, from silence to unity, exceeds d, no step between neighbouring gains exceeds d, whatever targets are set when; every gain is silence, unity or one of the ramp. (Proved for spans, refuted for processOne.)", "quantifier": "all symmetric ramps, all d, all sequences of targets and spans", "why_tests_cant": "All moments of reversal.", "anchors": ["algorithm/include/gnuradio-4.0/algorithm/BurstTaper.hpp:setTarget", "algorithm/include/gnuradio-4.0/algorithm/BurstTaper.hpp:transitionAfterRamp"]}
{"id": "C218", "title": "Targets are reached", "statement": "Two ramp lengths after setTarget the envelope is at the target and stays there; setTarget returns false exactly if the envelope is there or on its way already.", "quantifier": "all symmetric ramps, all sequences of calls", "why_tests_cant": "All states.", "anchors": ["algorithm/include/gnuradio-4.0/algorithm/BurstTaper.hpp:setTarget"]}
{"id": "C219", "title": "Tags of the clock source are on their samples", "statement": "Whatever the timer counts per call, listed tags and tags of times are each published once, on their sample, in order, and none of a published sample is missing. (Proved for places that ascend strictly and differ between the lists; refuted for two listed tags on one sample and for a listed tag and a time on one sample: the listed tags from there on are never published.)", "quantifier": "all lists of places, all sequences of timer counts", "why_tests_cant": "All sequences.", "anchors": ["blocks/basic/include/gnuradio-4.0/basic/ClockSource.hpp:processBulk"]}
{"id": "C220", "title": "The clock source publishes n_samples_max samples", "statement": "Tags do not change the number of samples: never more than n_samples_max, done exactly when all are published, progress in every call the timer has a count for. (Refuted for the tags: one listed behind the last sample is published.)", "quantifier": "all lists of places, all sequences of timer counts", "why_tests_cant": "All sequences.", "anchors": ["blocks/basic/include/gnuradio-4.0/basic/ClockSource.hpp:processBulk"]}
{"id": "C221", "title": "Times close together", "statement": "Times that fall on the same sample are all published, none early, the i-th at most i samples late. (Refuted for the single time 0: its tag is on every sample and each call publishes one sample.)", "quantifier": "all ascending lists of places, all sequences of timer counts", "why_tests_cant": "All sequences.", "anchors": ["blocks/basic/include/gnuradio-4.0/basic/ClockSource.hpp:processBulk"]}
{"id": "C222", "title": "Blocks driven by the clock keep the sample rate", "statement": "Over any sequence of calls, late, early or short of room, the total never exceeds the elapsed time times the rate by more than one nanosecond per call; without dropping, a call that nothing limits brings it to within one sample and one nanosecond; no call exceeds chunk or room. (Refuted without the nanosecond per call: the cuts add up.)", "quantifier": "all rates, chunks, times and rooms", "why_tests_cant": "All sequences of times.", "anchors": ["core/include/gnuradio-4.0/BlockingSync.hpp:computeWallClockSamples", "core/include/gnuradio-4.0/BlockingSync.hpp:syncSamples"]}
{"id": "C223", "title": "dropIfBehind only drops what is late", "statement": "With dropIfBehind a call counts at most the samples of the time since the call before. (Refuted: that calls in time keep the rate; asked more often than once per sample the block never counts a sample.)", "quantifier": "all rates, chunks, times and rooms", "why_tests_cant": "All sequences of times.", "anchors": ["core/include/gnuradio-4.0/BlockingSync.hpp:computeWallClockSamples"]}
{"id": "C224", "title": "The random generator never gets stuck", "statement": "For every seed the four words of Xoshiro256pp are never all zero, neither after seeding nor after any number of draws; from all zeros it would give zeros for ever.", "quantifier": "all seeds and numbers of draws", "why_tests_cant": "2^64 seeds and unbounded draws.", "anchors": ["algorithm/include/gnuradio-4.0/algorithm/rng/Xoshiro256pp.hpp:seed", "algorithm/include/gnuradio-4.0/algorithm/rng/Xoshiro256pp.hpp:next", "algorithm/include/gnuradio-4.0/algorithm/rng/Xoshiro256pp.hpp:splitMix64"]}
{"id": "C225", "title": "Generators of different seeds never fall together", "statement": "Two generators that are in the same state after equally many draws had the same seed, and so the same state before.", "quantifier": "all seeds, states and numbers of draws", "why_tests_cant": "2^128 pairs of seeds.", "anchors": ["algorithm/include/gnuradio-4.0/algorithm/rng/Xoshiro256pp.hpp:seed", "algorithm/include/gnuradio-4.0/algorithm/rng/Xoshiro256pp.hpp:next", "algorithm/include/gnuradio-4.0/algorithm/rng/Xoshiro256pp.hpp:splitMix64"]}
{"id": "C226", "title": "Spans are filled with the published numbers, in whole or in parts", "statement": "fillRaw gives the numbers of the published xoshiro256++ one by one, in 64 bits; filling two spans gives what one of both lengths gives.", "quantifier": "all states and lengths", "why_tests_cant": "All states.", "anchors": ["algorithm/include/gnuradio-4.0/algorithm/rng/Xoshiro256pp.hpp:fillRaw", "algorithm/include/gnuradio-4.0/algorithm/rng/Xoshiro256pp.hpp:next"]}
{"id": "C227", "title": "Uniform numbers stay in their half-open ranges and are equally likely", "statement": "toUniform01 gives multiples of 2^-53 (2^-24 for float) below one, each from equally many words; toUniformM11 is twice that minus one, in [-1, 1).", "quantifier": "all words of 64 bits", "why_tests_cant": "2^64 words.", "anchors": ["algorithm/include/gnuradio-4.0/algorithm/rng/Xoshiro256pp.hpp:toUniform01", "algorithm/include/gnuradio-4.0/algorithm/rng/Xoshiro256pp.hpp:toUniformM11"]}
