{"id": "C01", "title": "Packet write/read round trip (Read)", "statement": "Writing a packet with write_all and reading it back with Packet::read returns exactly the same blocks and the same payload, and leaves the source positioned on the first byte after the packet, whatever bytes follow it.", "quantifier": "every protocol (any set of block types with distinct signatures, any payload types whose codec round-trips and whose checksum is 4 bytes), every packet with at most 256 blocks, every suffix of bytes", "why_tests_cant": "tests sample a few block types and packets; the claim ranges over all schemas, all values, all block counts and all following bytes", "anchors": ["brec/src/packet/read.rs: ReadFrom for PacketDef", "brec/src/packet/write.rs: WriteMutTo for PacketDef::write_all", "brec/src/packet/header/mod.rs: PacketHeader::new", "brec/src/packet/header/write.rs: fill_buf"]}
{"id": "C02", "title": "Packet write/try_read round trip (Read+Seek)", "statement": "Placing the bytes of a written packet anywhere in a seekable source and calling Packet::try_read at that position returns Success with the same packet and moves the position exactly past it.", "quantifier": "every protocol, packet with at most 256 blocks, every prefix and suffix around the packet", "why_tests_cant": "the position arithmetic depends on what precedes and follows the packet; tests use one cursor at offset zero", "anchors": ["brec/src/packet/read.rs: TryReadFrom for PacketDef", "brec_macros/src/codegen/read/block.rs: TryRead for Block", "brec/src/payload/header/sreader.rs: SafeHeaderReader"]}
{"id": "C03", "title": "Packet round trip through BufRead", "statement": "If the buffered bytes offered by a BufRead source contain the complete packet, Packet::try_read (buffered) returns Success with the same packet and consumes exactly its bytes.", "quantifier": "every protocol, packet with at most 256 blocks, every following data and every later chunking of the source", "why_tests_cant": "the number of ways a source can be split into chunks is unbounded", "anchors": ["brec/src/packet/read.rs: TryReadFromBuffered for PacketDef", "brec_macros/src/codegen/read/block.rs: TryReadBuffered for Block", "brec/src/payload/header/read.rs: TryReadFromBuffered for PayloadHeader"]}
{"id": "C04", "title": "Encoded length law", "statement": "The bytes produced for a packet are exactly 29 + header.size long, where header.size is the sum of the block sizes plus payload header plus payload body, and the encoding is header, then blocks in order, then payload header, then payload body.", "quantifier": "every protocol and every packet whose payload checksum has 4 bytes", "why_tests_cant": "a length law over all packets is an arithmetic identity, tests check instances", "anchors": ["brec/src/packet/header/mod.rs: PacketHeader::new, payload_size", "brec/src/packet/write.rs", "brec/src/payload/header/mod.rs: ssize, size"]}
{"id": "C05", "title": "All write paths produce the same bytes", "statement": "write_all, write (into a sink that accepts everything) and the concatenation of slices() deliver byte-for-byte the same encoding for a packet, for a block and for a payload.", "quantifier": "every schema, including any interleaving of scalar and blob fields, every packet", "why_tests_cant": "grouping of fields into slices depends on the schema; tests exercise a handful of schemas", "anchors": ["brec_macros/src/codegen/write/block.rs: Write for Block, WriteVectored for Block", "brec/src/packet/write.rs: slices", "brec/src/traits/write/mod.rs: WriteVectoredPayloadWithHeaderTo"]}
{"id": "C06", "title": "Vectored write delivers everything under any partial writes", "statement": "write_vectored_all returns Ok only if the sink received exactly the concatenation of the slices; the sink never receives anything but a prefix of it; it fails with WriteZero only when the sink accepts zero bytes; it stops after at most as many calls as there are bytes.", "quantifier": "every list of slices (including empty ones) and every schedule of partial write sizes chosen by the sink", "why_tests_cant": "schedules of partial writes are unbounded and chosen by the OS", "anchors": ["brec/src/traits/write/slices.rs: IoSlices::write_vectored_all"]}
{"id": "C07", "title": "Non-retrying packet write reports a true prefix", "statement": "If Packet::write returns Ok(n), the sink received exactly the first n bytes of the packet's encoding, for every behaviour of the sink (short writes anywhere).", "quantifier": "every packet and every schedule of short writes by the sink", "why_tests_cant": "short-write positions are unbounded and invisible to tests over Vec<u8>", "anchors": ["brec/src/packet/write.rs: WriteMutTo for PacketDef::write", "brec/src/traits/write/mod.rs: WritePayloadWithHeaderTo::write"]}
{"id": "C08", "title": "Block write/read round trip", "statement": "For any block type, writing a block and reading it with read, read_from_slice, try_read or buffered try_read gives back the same field values and consumes exactly the block's static size.", "quantifier": "every block schema built from the supported field types (unsigned, signed, float bit patterns, bool, blobs, u8-linked enums), with or without no_crc, every field value, every trailing data", "why_tests_cant": "schemas and field values are unbounded; the code is generated by a macro, so each schema is different code", "anchors": ["brec_macros/src/codegen/read/block.rs", "brec_macros/src/codegen/write/block.rs", "brec_macros/src/codegen/props/block.rs", "brec_macros/src/tokenized/block/from_bytes/ty/mod.rs", "brec_macros/src/tokenized/block/read_exact/field/mod.rs"]}
{"id": "C09", "title": "Block corruption is never accepted as a different value", "statement": "If any change confined to four consecutive bytes hits the field or CRC bytes of an encoded block, read, read_from_slice and try_read either report an error or return the original value - never a different value.", "quantifier": "every schema with CRC, every value, every position and content of a corruption of up to four consecutive bytes", "why_tests_cant": "there are more corruptions than any test can try; needs the algebra of CRC-32", "anchors": ["brec_macros/src/codegen/read/block.rs", "brec_macros/src/codegen/props/block.rs: Crc for Block", "brec_macros/src/tokenized/block/to_bytes/field/mod.rs"]}
{"id": "C10", "title": "Packet header corruption is detected", "statement": "If any change confined to four consecutive bytes hits the size, blocks length, payload flag or CRC of a packet header, every header reader reports CrcDismatch or returns the original header, never a different one; a change inside the signature is reported as SignatureDismatch.", "quantifier": "every header and every corruption of up to four consecutive bytes", "why_tests_cant": "exhaustive corruption testing of 2^32 patterns at every position is infeasible", "anchors": ["brec/src/packet/header/read.rs", "brec/src/packet/header/mod.rs: crc"]}
{"id": "C11", "title": "Raw payload corruption is detected", "statement": "For the built-in byte-vector payload, any change confined to four consecutive bytes of the body is reported as CrcDismatch; the body is never returned altered.", "quantifier": "every body of any length, every position and content of the corruption", "why_tests_cant": "unbounded bodies times unbounded corruptions", "anchors": ["brec/src/traits/read/mod.rs: ReadPayloadFrom::read", "brec/src/payload/defaults/vec_u8.rs", "brec/src/traits/props/mod.rs: PayloadCrc"]}
{"id": "C12", "title": "A truncated block is never accepted", "statement": "Reading any strict prefix of an encoded block from a slice, a stream or a seekable source never yields a block: slice and stream readers report an error, the seekable try_read reports NotEnoughData with exactly the number of missing bytes (relative to the signature or the whole block).", "quantifier": "every schema, value and truncation point", "why_tests_cant": "all truncation points of all blocks", "anchors": ["brec_macros/src/codegen/read/block.rs"]}
{"id": "C13", "title": "try_read on a block leaves the position unchanged unless it succeeds", "statement": "When try_read on a seekable source does not return Success the source position is where it was before the call, as the documentation promises.", "quantifier": "every schema, every source content and position", "why_tests_cant": "the claim is about every failure path", "anchors": ["brec_macros/src/codegen/read/block.rs: TryRead for Block", "site/docs/parts/blocks.md"]}
{"id": "C14", "title": "Block dispatch does not depend on declaration order", "statement": "Decoding a block through the generated Block enum (slice, seekable and buffered readers) finds the block type with the matching signature whatever the order in which the types were collected.", "quantifier": "every list of block types with pairwise distinct signatures, every permutation of it, every input", "why_tests_cant": "the order comes from a randomly seeded HashMap at compile time; tests see one order per build", "anchors": ["brec_macros/src/collector/blocks/read.rs", "brec_macros/src/collector/mod.rs: Collector"]}
{"id": "C15", "title": "Stream dispatch of blocks finds every declared type", "statement": "Decoding a written block of any declared type through the generated Block enum with Block::read on a plain Read source returns that block.", "quantifier": "every list of at least two block types, every order", "why_tests_cant": "depends on the HashMap order at compile time", "anchors": ["brec_macros/src/collector/blocks/read.rs: read_from, read_block_from"]}
{"id": "C16", "title": "read_from_slice without signature reads the same block", "statement": "read_from_slice(.., skip_sig = true) given the block bytes after the signature returns the same block as reading with the signature, and never panics.", "quantifier": "every schema and value", "why_tests_cant": "all schemas and offsets", "anchors": ["brec_macros/src/codegen/read/block.rs: ReadFromSlice for Block"]}
{"id": "C17", "title": "Payload header round trip", "statement": "A payload header written with as_vec is read back identically by read, try_read and buffered try_read, for every allowed signature and CRC length, consuming exactly its size (buffered: without consuming); other length bytes are rejected.", "quantifier": "all 36 combinations of lengths, all contents, all payload lengths below 2^32, all following bytes", "why_tests_cant": "contents and trailing data are unbounded", "anchors": ["brec/src/payload/header/mod.rs: as_vec, size", "brec/src/payload/header/read.rs", "brec/src/traits/props/byte_block.rs"]}
{"id": "C18", "title": "Payload header try_read is all-or-nothing", "statement": "On a truncated payload header try_read returns NotEnoughData(n) with n>0 no larger than what is really missing and restores the position; the buffered variant never consumes.", "quantifier": "every header and truncation point", "why_tests_cant": "every cut of every header", "anchors": ["brec/src/payload/header/read.rs: TryReadFrom, TryReadFromBuffered", "brec/src/payload/header/sreader.rs"]}
{"id": "C19", "title": "Documented block limit is enforced consistently", "statement": "Every packet that the writer accepts (write_all returns Ok) can be read back by every reader: the limit on the number of blocks is the same for writing, Packet::read, try_read, the streaming reader and the filtered reader.", "quantifier": "every packet, every number of blocks", "why_tests_cant": "needs the relation between limits on all code paths for all counts", "anchors": ["brec/src/lib.rs: MAX_BLOCKS_COUNT", "brec/src/packet/read.rs", "brec/src/packet/reader.rs", "brec/src/packet/mod.rs: filtered", "brec/src/packet/write.rs"]}
{"id": "C20", "title": "NotEnoughData of Packet::try_read is honest", "statement": "When the source holds only a strict prefix of a packet, try_read reports NotEnoughData, restores the position, and supplying the reported number of bytes is never more than needed to complete the packet.", "quantifier": "every packet and truncation point", "why_tests_cant": "every cut of every packet", "anchors": ["brec/src/packet/read.rs: TryReadFrom for PacketDef"]}
{"id": "C21", "title": "Payloads with any documented checksum length survive a packet round trip", "statement": "A payload type whose checksum is 4, 8, 16, 32, 64 or 128 bytes can be written in a packet and read back.", "quantifier": "every payload type with a round-tripping codec and any allowed checksum length", "why_tests_cant": "custom checksum lengths multiply code paths", "anchors": ["brec_macros/src/collector/payloads/props.rs: crc", "brec/src/traits/props/mod.rs: crc_size", "brec/src/payload/header/mod.rs: ssize"]}
{"id": "C22", "title": "Decoding never panics on hostile bytes", "statement": "For every byte sequence, Packet::read, try_read, filtered and the streaming reader return Ok or Err; they never panic (index out of bounds, arithmetic overflow, capacity overflow).", "quantifier": "every byte sequence, every chunking", "why_tests_cant": "all inputs", "anchors": ["brec/src/packet/read.rs", "brec/src/packet/reader.rs", "brec/src/packet/mod.rs: filtered", "brec/src/packet/header/read.rs"]}
{"id": "C23", "title": "One rule per kind", "statement": "After any history of add_rule and remove_rule there is at most one rule of each kind; add_rule fails with RuleDuplicate exactly when one of that kind is present and then changes nothing; remove_rule removes that kind and nothing else.", "quantifier": "every history of add/remove calls", "why_tests_cant": "histories are unbounded", "anchors": ["brec/src/packet/rules.rs: add_rule, remove_rule"]}
{"id": "C24", "title": "Filter verdicts depend only on the rule of their own kind", "statement": "filter_by_blocks, filter_by_payload and filter return the verdict of the currently installed rule of that kind and true when there is none; ignore calls the installed ignore callback exactly once with the given bytes.", "quantifier": "every history of rule changes, every packet", "why_tests_cant": "histories and predicates are unbounded", "anchors": ["brec/src/packet/rules.rs: filter_by_blocks, filter_by_payload, filter, ignore"]}
{"id": "C25", "title": "Filtered packet reading", "statement": "On a well-formed packet, PacketDef::filtered returns Accepted with the packet iff the block filter, the payload filter (applied to the raw body) and the packet filter all accept, otherwise Denied; in both cases the source is left exactly after the packet; a packet denied by the block filter is denied even if its payload is undecodable.", "quantifier": "every protocol, packet, rule set and following bytes", "why_tests_cant": "predicates and packets are unbounded", "anchors": ["brec/src/packet/mod.rs: PacketDef::filtered"]}
{"id": "C26", "title": "Streaming reader on a pure packet stream", "statement": "Repeatedly calling PacketBufReader::read on a stream consisting of packets returns exactly those packets, in order, each once, then NoData; nothing is passed to the ignore callback.", "quantifier": "every list of packets (at most 255 blocks each), every way the source splits the stream into non-empty chunks", "why_tests_cant": "chunkings are exponential in the stream length; tests use one BufReader over one cursor", "anchors": ["brec/src/packet/reader.rs: PacketBufReaderDef::read, resolve_header_ready, resolve_header_refill", "brec/src/packet/header/mod.rs: get_pos"]}
{"id": "C27", "title": "Streaming reader with filters", "statement": "With any set of filter rules installed, a pure packet stream yields exactly Found for the packets accepted by all filters and Skipped for the others, in order, under any chunking; a rejected packet never disturbs the following ones.", "quantifier": "every list of packets, every rule set, every chunking", "why_tests_cant": "predicates, packets and chunkings are unbounded", "anchors": ["brec/src/packet/reader.rs"]}
{"id": "C28", "title": "Streaming reader on mixed streams", "statement": "On a stream of packets separated by foreign bytes that do not contain or form the packet signature, the streaming reader returns all packets in order, passes exactly the foreign bytes, in order, to the ignore callback and then reports NoData.", "quantifier": "every list of packets and foreign byte strings, every chunking", "why_tests_cant": "chunk boundaries inside signatures and headers matter; they are unbounded", "anchors": ["brec/src/packet/reader.rs", "brec/src/packet/header/mod.rs: get_pos", "site/docs/tools/buffer.md"]}
{"id": "C29", "title": "Streaming reader makes no packets up", "statement": "Every packet returned by the streaming reader is the decoding of a contiguous section of the source that starts with a valid packet header, and the sections of successive packets appear in the source in order without overlap.", "quantifier": "every byte stream, every chunking, every call sequence without errors", "why_tests_cant": "arbitrary streams", "anchors": ["brec/src/packet/reader.rs"]}
{"id": "C30", "title": "Reading always terminates", "statement": "Calling read until NoData (the loop shown in the documentation) terminates on every finite stream that produces no error.", "quantifier": "every finite byte stream, every chunking", "why_tests_cant": "non-termination cannot be observed by a finite test", "anchors": ["brec/src/packet/reader.rs", "site/docs/tools/buffer.md"]}
{"id": "C31", "title": "Transient source errors do not lose packets", "statement": "If the source reports an I/O error on one read (Interrupted, WouldBlock) and later continues, the packets already partly received are still returned.", "quantifier": "every stream, chunking and error position", "why_tests_cant": "error positions relative to the reader state are unbounded", "anchors": ["brec/src/packet/reader.rs: read, resolve_header_ready, resolve_header_refill"]}
{"id": "C32", "title": "A damaged packet does not block the stream", "statement": "After a packet whose content fails validation the streaming reader reports an error for it and then continues with the packets that follow.", "quantifier": "every stream with a damaged packet, every chunking", "why_tests_cant": "which part is damaged and where chunks end both matter", "anchors": ["brec/src/packet/reader.rs"]}
{"id": "C33", "title": "Storage is an append-only list", "statement": "After any sequence of inserts, iterating a freshly opened reader yields exactly the inserted packets in order and count() is their number.", "quantifier": "every number of packets (any number of slots), every packet content, every point at which writers and readers are opened", "why_tests_cant": "slot boundaries, offsets and lengths are unbounded", "anchors": ["brec/src/storage/writer/mod.rs: insert, load", "brec/src/storage/reader/mod.rs: load, iter, count", "brec/src/storage/reader/iters.rs: ReaderIterator", "brec/src/storage/locator.rs"]}
{"id": "C34", "title": "Reopening a writer continues the same list", "statement": "Closing the writer at any point and opening a new one on the same file, then inserting more packets, gives the same file content as never closing it.", "quantifier": "every history of inserts and reopens", "why_tests_cant": "every reopen point incl. exactly full slots", "anchors": ["brec/src/storage/writer/mod.rs: new, load", "brec/src/storage/locator.rs: setup"]}
{"id": "C35", "title": "nth is list indexing", "statement": "nth(i) returns the i-th inserted packet for i < count and None for i >= count.", "quantifier": "every storage history and every index", "why_tests_cant": "slot arithmetic at every index", "anchors": ["brec/src/storage/reader/mod.rs: nth"]}
{"id": "C36", "title": "range is list slicing", "statement": "range(from, len) yields exactly the packets with index from .. min(from+len, count).", "quantifier": "every storage, from, len", "why_tests_cant": "all combinations", "anchors": ["brec/src/storage/reader/mod.rs: range", "brec/src/storage/reader/iters.rs: ReaderRangeIterator"]}
{"id": "C37", "title": "seek(n) iterates from packet n to the end", "statement": "seek(n) followed by iteration yields packets n .. count-1 in order and fails with an error for n >= count.", "quantifier": "every storage and n", "why_tests_cant": "needs more than one slot and a start not on a boundary", "anchors": ["brec/src/storage/reader/mod.rs: seek", "brec/src/storage/reader/iters.rs: PacketsLocatorIterator::from, ReaderIterator::seek"]}
{"id": "C38", "title": "Filtered storage iteration is filter of iteration", "statement": "filtered() yields exactly the packets of iter() accepted by the installed rules, in order; range_filtered(from,len) yields the first len accepted packets from index from on.", "quantifier": "every storage, rule set, range", "why_tests_cant": "predicates and storages are unbounded", "anchors": ["brec/src/storage/reader/mod.rs: filtered, range_filtered, nth_filtered", "brec/src/storage/reader/iters.rs"]}
{"id": "C39", "title": "reload sees exactly the new packets", "statement": "After any number of inserts by a writer, reload() on an already opened reader returns the number of new packets and afterwards count, nth and iteration agree with a freshly opened reader.", "quantifier": "every old size, every number of new packets", "why_tests_cant": "old and new size relative to slot boundaries", "anchors": ["brec/src/storage/reader/mod.rs: reload"]}
{"id": "C40", "title": "Slot codec round trip and validation", "statement": "A slot written to the file is read back identically; a slot with a changed capacity, length table or checksum confined to four consecutive bytes is never read back as a different slot.", "quantifier": "every capacity, table and corruption", "why_tests_cant": "unbounded tables and corruptions", "anchors": ["brec/src/storage/slot/mod.rs", "brec/src/storage/slot/read.rs", "brec/src/storage/slot/write.rs"]}
{"id": "C41", "title": "Slot bookkeeping", "statement": "For every slot reached by inserts of non-zero lengths: the used entries form a prefix, free index equals the number of used entries, width is the sum of the used lengths, insert fills the first free entry only and fails exactly when full, and the slot iterator yields adjacent ranges covering the data area in order.", "quantifier": "every insert history", "why_tests_cant": "histories are unbounded", "anchors": ["brec/src/storage/slot/mod.rs", "brec/src/storage/slot/anchored.rs", "brec/src/storage/locator.rs"]}
{"id": "C42", "title": "Crash during insert keeps the storage usable", "statement": "If the process dies at any point of insert (any prefix of its file writes reached the disk), the storage can be reopened and all previously inserted packets are returned.", "quantifier": "every history and every crash point", "why_tests_cant": "crash points cannot be enumerated by tests of the live process", "anchors": ["brec/src/storage/writer/mod.rs: insert, load", "brec/src/storage/slot/read.rs"]}
{"id": "C43", "title": "Crash or failed insert never damages bytes of earlier packets", "statement": "At every crash point of an insert the bytes of all previously inserted packets are still at the same place in the file.", "quantifier": "every history and crash point (any prefix of the byte writes)", "why_tests_cant": "crash points are unbounded", "anchors": ["brec/src/storage/writer/mod.rs: insert"]}
{"id": "C44", "title": "A failed insert leaves the storage as it was", "statement": "If insert returns an error, later inserts and readers behave as if it had never been called.", "quantifier": "every failure point of the underlying file", "why_tests_cant": "failure injection at each byte is not tested", "anchors": ["brec/src/storage/writer/mod.rs: insert", "brec/src/storage/locator.rs"]}
{"id": "C45", "title": "Manual recovery of a storage file", "statement": "Reading a storage file with the streaming reader returns all stored packets in order and skips the slot tables, as the documentation promises for recovery; the packets inserted before a crash are found in the same way even if the storage can no longer be opened.", "quantifier": "every storage in which no packet signature begins inside a slot table (for packets below 4 GiB: no table checksum equals the first half of the signature), every chunking allowed by C28", "why_tests_cant": "combines storage layouts with chunkings", "anchors": ["brec/src/packet/reader.rs", "brec/src/storage/writer/mod.rs", "site/docs/tools/storage.md"]}
{"id": "C46", "title": "Mutual exclusion of file storages", "statement": "At most one live FileStorage holds the lock of a path at any time, under any interleaving of open attempts and drops.", "quantifier": "every interleaving of any number of processes; nobody removes the lock file", "why_tests_cant": "schedules are unbounded", "anchors": ["brec/src/storage/writer/locker.rs: FileWriterDef::new"]}
{"id": "C47", "title": "Lock waiting respects timeout", "statement": "Opening a locked storage without timeout fails immediately with FileIsLocked; with a timeout it never fails before the timeout has elapsed, fails at the latest one polling interval after it, and succeeds if the lock is free at a poll.", "quantifier": "every timeout, interval and lock history", "why_tests_cant": "real-time schedules", "anchors": ["brec/src/storage/writer/locker.rs: wait_or_fail"]}
{"id": "C48", "title": "Different storage files do not share a lock", "statement": "Two storages with different file names can be open at the same time.", "quantifier": "every pair of distinct paths", "why_tests_cant": "path-dependent", "anchors": ["brec/src/storage/writer/locker.rs: lock file name"]}
{"id": "C49", "title": "Sensor never loses a wake-up", "statement": "Whenever the file is larger than the processed length and no notification or call is in progress, a wake is queued or was received and not yet acknowledged with processed().", "quantifier": "every interleaving of appends, file events, receives and processed() calls", "why_tests_cant": "thread interleavings are unbounded", "anchors": ["brec/src/storage/observer/sensor/mod.rs: emit, processed"]}
{"id": "C50", "title": "Sensor acknowledgement is monotone and at most one wake is outstanding", "statement": "The acknowledged length never decreases whatever the order of concurrent acknowledgements, and at most one wake is queued at a time.", "quantifier": "every interleaving of concurrent acknowledgements", "why_tests_cant": "compare-exchange races", "anchors": ["brec/src/storage/observer/sensor/mod.rs: fetch_max_u64, processed"]}
{"id": "C51", "title": "BufferedReader delivers the underlying stream", "statement": "Any sequence of read, fill_buf/consume (within what fill_buf returned) and refill calls on BufferedReader delivers the bytes of the underlying source in order without loss or duplication, and consumed() is their number.", "quantifier": "every call sequence and chunking", "why_tests_cant": "call sequences are unbounded", "anchors": ["brec/src/traits/read/reader.rs: BufferedReader"]}
{"id": "C52", "title": "Payload dispatch does not depend on declaration order", "statement": "Decoding a payload through the generated Payload enum picks the type whose signature is in the header, whatever the order of declaration, and reports SignatureDismatch without consuming any byte when no type matches.", "quantifier": "every list of payload types with distinct signatures, every permutation", "why_tests_cant": "HashMap order at compile time", "anchors": ["brec_macros/src/collector/payloads/read.rs"]}
{"id": "C53", "title": "Block signatures distinguish block types", "statement": "Two block types with different full paths get different signatures, as documented.", "quantifier": "every pair of block definitions", "why_tests_cant": "all pairs of definitions", "anchors": ["brec_macros/src/entities/block/mod.rs: sig", "site/docs/specification.md"]}
{"id": "C54", "title": "Payload hooks run", "statement": "before_encode is invoked before every encoding of a payload and after_decode after every decoding.", "quantifier": "every payload write and read", "why_tests_cant": "claim about all code paths", "anchors": ["brec/src/payload/mod.rs: PayloadHooks", "brec/src/traits/write/mod.rs", "brec/src/traits/read/mod.rs"]}
{"id": "C55", "title": "Canonical decoding", "statement": "Two different byte strings never decode to the same packet: what Packet::read accepts is exactly what write_all would produce for the result.", "quantifier": "every byte string", "why_tests_cant": "all inputs", "anchors": ["brec/src/packet/read.rs", "brec_macros/src/codegen/read/block.rs", "brec/src/packet/header/read.rs"]}
{"id": "C56", "title": "A wake announces new data", "statement": "The size in a wake is a length the file really had, and when the owner receives it this is more than it has acknowledged.", "quantifier": "every interleaving of changes, events, receives and processed() calls", "why_tests_cant": "thread interleavings are unbounded", "anchors": ["brec/src/storage/observer/sensor/mod.rs: emit"]}
{"id": "C57", "title": "Field names do not influence reading", "statement": "A block is written and read in the same way whatever its fields are called (apart from its signature); in particular a field may be called crc.", "quantifier": "every block schema and every choice of field names", "why_tests_cant": "all schemas and names", "anchors": ["brec_macros/src/codegen/read/block.rs: ReadFrom, ReadFromSlice"]}
{"id": "C58", "title": "Payload corruption is detected for every payload type", "statement": "If up to four consecutive bytes of an encoded payload with the default checksum are changed, reading it fails; it never yields a different value.", "quantifier": "every payload type with the default checksum (Vec<u8>, String, bincode), every value, every such change", "why_tests_cant": "all types, values and changes; the counterexamples are collisions that random tests do not hit", "anchors": ["brec/src/traits/read/mod.rs: ReadPayloadFrom::read", "brec/src/payload/defaults/string.rs: decode", "brec/src/traits/props/mod.rs: PayloadCrc::crc"]}
{"id": "C59", "title": "Every declared type takes part", "statement": "Every type marked with #[block] or #[payload] gets a variant in the generated enum, whatever its name and module path.", "quantifier": "all lists of declarations, all orders of the collector's hash map", "why_tests_cant": "all sets of names and paths", "anchors": ["brec_macros/src/collector/mod.rs: add_block, add_payload, write", "brec_macros/src/entities/block/attr/mod.rs: fullname"]}
{"id": "C60", "title": "Payload signatures distinguish payload types", "statement": "Different payload types of a crate have different signatures, so a payload is always read as the type it was written as.", "quantifier": "all pairs of payload declarations", "why_tests_cant": "all names; collisions", "anchors": ["brec_macros/src/entities/payload/mod.rs: sig", "brec_macros/src/collector/payloads/read.rs"]}
{"id": "C61", "title": "Generated enums derive the common traits", "statement": "The generated Block enum derives exactly the traits all blocks derive, and the Payload enum those all payloads derive plus payloads_derive; all of them can be derived for an enum.", "quantifier": "all non-empty lists of declarations and their derives", "why_tests_cant": "all combinations of derives", "anchors": ["brec_macros/src/entities/derives/mod.rs: common", "brec_macros/src/generate/config.rs: get_payload_derive"]}
{"id": "C62", "title": "Undocumented attributes are refused", "statement": "#[block], #[payload] and generate! accept the documented parameters and report an error for everything else.", "quantifier": "all attribute lists", "why_tests_cant": "all expressions", "anchors": ["brec_macros/src/parsing/block/attr/mod.rs", "brec_macros/src/parsing/payload/attr/mod.rs", "brec_macros/src/generate/parser.rs"]}
{"id": "C63", "title": "Generated code is consistent", "statement": "For all declarations and settings the generated functions name exactly the variants of the generated enums, the variants differ, and packet types are generated exactly when there are blocks and some payload.", "quantifier": "all declarations, settings and orders of the collector", "why_tests_cant": "all combinations of declarations and settings", "anchors": ["brec_macros/src/collector/payloads: enums.rs, props.rs, read.rs, write.rs", "brec_macros/src/collector/mod.rs: write"]}
{"id": "C64", "title": "A block is what was declared", "statement": "An accepted declaration gives a block with the declared name, derives, fields in order with the documented types, no checksum exactly with no_crc, and the first path; a declaration is refused exactly when an attribute makes no sense, it is generic, not a struct with named fields, or has a reserved field name or unsupported type.", "quantifier": "all declarations", "why_tests_cant": "all structs and attribute lists", "anchors": ["brec_macros/src/parsing/block/mod.rs", "brec_macros/src/parsing/field/mod.rs", "brec_macros/src/parsing/ty/mod.rs", "brec_macros/src/parsing/payload/mod.rs"]}
{"id": "C65", "title": "no_crc switches the payload checksum off", "statement": "For a payload with no_crc the checksum field is written as zeros and not verified; without it the checksum of a bincode payload is the CRC32 of its encoding.", "quantifier": "all payload declarations, codecs, values and headers", "why_tests_cant": "all attribute lists and header contents", "anchors": ["brec_macros/src/codegen/props/payload.rs: Crc", "brec_macros/src/lib.rs: documentation of no_crc"]}
{"id": "C66", "title": "A packet that cannot be encoded leaves no trace", "statement": "Writing a packet whose payload cannot be encoded, or does not fit the 32-bit length field, gives an error and writes nothing; the length field of a payload that is written is its size.", "quantifier": "all packets, payload types and values, all write paths", "why_tests_cant": "payloads above 4 GiB and failing encoders are not exercised", "anchors": ["brec/src/payload/header/mod.rs: PayloadHeader::new", "brec/src/packet/write.rs: write, write_all, slices"]}
{"id": "C67", "title": "Buffered header reads leave the source behind the header", "statement": "PacketHeader::try_read on a BufRead consumes exactly the header on success and nothing otherwise, and reports the exact number of missing bytes.", "quantifier": "all buffered sources and contents", "why_tests_cant": "all ways a source can fill its buffer", "anchors": ["brec/src/packet/header/read.rs: TryReadFromBuffered"]}
{"id": "C68", "title": "get_pos finds the first signature", "statement": "PacketHeader::get_pos returns the offset of the first occurrence of the packet signature in a buffer, and None only if there is none.", "quantifier": "all buffers", "why_tests_cant": "all buffers", "anchors": ["brec/src/packet/header/mod.rs: get_pos"]}
{"id": "C69", "title": "Rules may be changed between reads", "statement": "A client of the streaming reader may add and remove rules between any two reads. Whatever it does, every packet of the stream is reported exactly once and in order: as found or as skipped according to the rules in force at the call that reports it. No packet is lost, repeated or judged by rules that were removed.", "quantifier": "all sequences of reads and rule changes, all packets, all gaps without a signature, all chunkings (into pieces of at least 29 bytes if a gap has 21 bytes or more)", "why_tests_cant": "every interleaving of rule changes with reads that stop inside packets", "anchors": ["brec/src/packet/reader.rs: add_rule, remove_rule, read, try_read", "brec/src/packet/rules.rs: add_rule, remove_rule"]}
{"id": "C70", "title": "Slot::try_read tells incomplete, damaged and foreign data apart", "statement": "Slot::try_read at any position of any source: it reads a slot exactly if a complete slot with the right checksum is there; data that is not a slot gives SignatureDismatch, a wrong checksum gives CrcDismatch, an incomplete slot gives NotEnoughData with the number of missing bytes; after NotEnoughData and SignatureDismatch the position is unchanged; it never panics.", "quantifier": "all contents and positions", "why_tests_cant": "all contents", "anchors": ["brec/src/storage/slot/read.rs: SlotHeader::try_read, Slot::try_read"]}
{"id": "C71", "title": "An empty slot at the end of a storage is harmless", "statement": "A storage file that ends with a slot without packets (written before the first packet of the slot) is valid: the reader sees exactly the packets before it by iteration, filtered iteration, nth and count, and the writer puts the next packet into that slot.", "quantifier": "all packets, all rules", "why_tests_cant": "all packets; slot boundaries only occur every 500 packets", "anchors": ["brec/src/storage/reader/mod.rs: reload, nth, iter", "brec/src/storage/writer/mod.rs: insert", "brec/src/storage/slot/locator.rs"]}
{"id": "C72", "title": "len, is_empty and buffer_len agree with fill_buf", "statement": "For a BufferedReader over a source that gives no empty buffer before its end: len is the number of bytes the next fill_buf shows, buffer_len that number without the preloaded bytes, is_empty holds exactly at the end of the data; an error is the one of the source and no byte is lost by it.", "quantifier": "all states of the reader and its source", "why_tests_cant": "all states, in particular preloaded bytes with an exhausted inner buffer", "anchors": ["brec/src/traits/read/reader.rs: buffer_len, len, is_empty"]}
{"id": "C73", "title": "Every checksum is the standard CRC-32", "statement": "The checksums of packet headers, blocks, slots and of payloads with the library's own checksum, and the signatures of blocks, are the CRC-32 of ISO 3309 / RFC 1952: the inverted remainder of the message polynomial over GF(2), bits in transmission order, and there is no other value that satisfies that definition.", "quantifier": "all byte sequences, all packets, blocks, payloads and slots", "why_tests_cant": "check values are single points; another polynomial or bit order can agree on any finite set", "anchors": ["brec/src/packet/header/mod.rs: PacketHeader::crc", "brec_macros/src/codegen/props/block.rs: Crc", "brec/src/traits/props/mod.rs: PayloadCrc", "brec/src/storage/slot/mod.rs: Slot::crc", "brec_macros/src/entities/block/mod.rs: sig"]}
{"id": "C74", "title": "Buffered try_read of an incomplete packet loses nothing", "statement": "When the buffer of a BufRead source shows only part of a packet, Packet::try_read (buffered) either reads the packet by fetching more data or reports NotEnoughData with a positive number not above what is missing, without consuming anything, so that the packet can be read when the rest has arrived.", "quantifier": "every packet, every cut, every source", "why_tests_cant": "every cut of every packet", "anchors": ["brec/src/packet/read.rs: TryReadFromBuffered for PacketDef", "brec/src/payload/header/read.rs: TryReadFromBuffered for PayloadHeader"]}
{"id": "C75", "title": "Opening any file as a storage", "statement": "Storage readers and writers can be opened on a file of any content without a panic: the tables found one behind the other, each followed by the bytes it announces, become the slots, and opening succeeds when fewer than 16 bytes (or an incomplete table) follow the last one and fails with DamagedSlot when something else follows.", "quantifier": "all files", "why_tests_cant": "arbitrary, crafted bytes", "anchors": ["brec/src/storage/reader/mod.rs: ReaderDef::new, load", "brec/src/storage/writer/mod.rs: WriterDef::new, load", "brec/src/storage/slot/mod.rs: Slot::width"]}
{"id": "C76", "title": "nth on any opened storage", "statement": "On every storage file that can be opened, nth and nth_filtered of any number return a packet, None or an error and do not panic: they read at the place that the tables give for that entry.", "quantifier": "all files that can be opened, all numbers, all protocols and rules", "why_tests_cant": "arbitrary, crafted tables", "anchors": ["brec/src/storage/reader/mod.rs: nth, nth_filtered", "brec/src/storage/slot/mod.rs: Slot::is_empty, get_slot_offset"]}
{"id": "C77", "title": "Iterating over any opened storage ends", "statement": "On every storage file that can be opened, the iterators (plain and filtered) read exactly the bytes that the tables announce, packet by packet, end after at most as many results as the file has bytes, and do not panic unless the bytes contain a packet header that announces 2^63 bytes or more.", "quantifier": "all files that can be opened, all protocols and rules", "why_tests_cant": "termination and absence of panics for arbitrary, crafted files", "anchors": ["brec/src/storage/reader/iters.rs: PacketsLocatorIterator::next, ReaderIterator::next, ReaderFilteredIterator::next"]}
{"id": "C78", "title": "Seeking in any opened storage", "statement": "On every storage file that can be opened, seek of any number does not panic: it fails when the number is not below the number of entries in use and otherwise gives an iterator that starts at the place of that entry and ends.", "quantifier": "all files that can be opened, all numbers, all protocols", "why_tests_cant": "arbitrary, crafted tables", "anchors": ["brec/src/storage/reader/iters.rs: PacketsLocatorIterator::from, ReaderIterator::seek", "brec/src/storage/slot/mod.rs: Slot::count, is_used, offset_of"]}
{"id": "C79", "title": "A declared crate's packets round trip", "statement": "For a crate whose blocks and payloads are declared with the macros (no field named crc, C57): a packet of at most 256 blocks with values of the declared types, whose payload has a working codec and a checksum of four bytes (C21), written with write_all, is read back unchanged by read from every source that delivers the bytes, with what follows left in the source.", "quantifier": "all sets of accepted declarations with distinct signatures, all packets of declared values, all sources", "why_tests_cant": "quantifies over declarations, i.e. over programs, and over sources", "anchors": ["brec-macros-parser: Block::try_from, Payload::try_from", "brec-macros-gen: generate", "brec/src/packet/read.rs: ReadFrom for PacketDef", "brec/src/packet/write.rs: WriteMutTo for PacketDef"]}
{"id": "C80", "title": "What unreadable bytes of a text become", "statement": "Whatever the bytes of a String payload are, reading it never fails because of them: the text is the one obtained by replacing every maximal unfinished beginning of a character, and every byte that begins none, by U+FFFD. The text is valid UTF-8 and equals the bytes exactly when they are valid UTF-8. The payload is accepted exactly when the header's checksum is that of the repaired text, otherwise the error is CrcDismatch, and what follows stays in the source.", "quantifier": "all bodies, all checksums, all sources", "why_tests_cant": "covers all byte strings; needs a definition of UTF-8 independent of the decoder", "anchors": ["brec/src/payload/defaults/string.rs:40-46", "brec/src/traits/read/mod.rs:68-83"]}
{"id": "C81", "title": "Ranges of a storage of unknown origin", "statement": "Iterating a range of `len` packets from number `from` of any file that was opened gives exactly what `nth` gives for from, from+1, ..., up to the first number for which there is no packet, and then ends. A filtered range gives the accepted packets and the errors of `nth_filtered` in the same order until it has `len` accepted packets; errors do not count. Without holes in the tables there is no panic but that of a header announcing 2^63 bytes.", "quantifier": "all files shorter than 2^63 bytes that can be opened, all ranges, all rules", "why_tests_cant": "covers every file that can be opened and the state left by failed reads between the elements", "anchors": ["brec/src/storage/reader/iters.rs:343-355", "brec/src/storage/reader/iters.rs:412-434"]}
{"id": "C82", "title": "Inserting into a storage of unknown origin", "statement": "Inserting a packet into any storage that was opened leaves it readable: it can be opened again, everything that could be read is still there and the packet is added. (False in general; the exact bytes after the insert are described for every file that can be opened, and the claim holds when the tables have no holes and only the last of them has room.)", "quantifier": "all files shorter than 2^63 bytes that can be opened, all packets", "why_tests_cant": "tests only insert into files made by the writer itself", "anchors": ["brec/src/storage/writer/mod.rs:83-114", "brec/src/storage/locator.rs:29-73"]}
{"id": "C83", "title": "Reading a storage whose file was changed behind the reader", "statement": "Whatever happens to the file after a storage reader was opened on it (cut, overwritten, replaced), `nth`, the iterators and `seek` of the reader return packets, errors or nothing, but do not panic. (False as stated: they panic when the file becomes shorter than what the tables announced; exact results are given for every content, and the claim holds when the file does not become shorter and the tables have no holes.)", "quantifier": "all files that were opened, all later contents shorter than 2^63 bytes, all packet numbers, all rules", "why_tests_cant": "tests never change a file under an open reader, and the content it can change to is arbitrary", "anchors": ["brec/src/storage/reader/mod.rs:205-330", "brec/src/storage/reader/iters.rs:96-270"]}
{"id": "C84", "title": "Reloading a storage whose file was changed in any way", "statement": "After `reload` returned Ok on a file with any new content, the reader has the tables a newly opened reader would have, `count` is the number of packets in them, and the number returned is the number of packets added. Otherwise it is an error, not a panic. (False as stated; what reload does is described for every content.)", "quantifier": "all files that were opened, all later contents shorter than 2^63 bytes", "why_tests_cant": "tests only reload after inserts by the writer of the same crate", "anchors": ["brec/src/storage/reader/mod.rs:79-216"]}
{"id": "C85", "title": "What one call of the sensor does", "statement": "`processed(until)`, undisturbed, sets the acknowledged length to the larger of the old one and `until`; if the file is longer, the sensor is locked and a wake with the length of the file is in the channel (or the one that was there), else it is unlocked. It returns Err(Disconnected) exactly when the file is longer and the receiver was dropped, Ok otherwise. An event of the watcher does the same for an unlocked sensor with news and nothing else. Whatever runs at the same time, Disconnected is only returned after the receiver was dropped, an i/o error only when looking at the file failed in that call, and nothing is received after the drop.", "quantifier": "all states of the sensor, all lengths, any number of spurious failures of compare_exchange_weak; all interleavings for the errors", "why_tests_cant": "tests cannot force spurious failures or interleavings, nor drop the receiver at every point", "anchors": ["brec/src/storage/observer/sensor/mod.rs:82-129", "brec/src/storage/observer/sensor/error.rs:4-15"]}
{"id": "C86", "title": "Packet headers on their own", "statement": "A packet header is 29 bytes; read, read_from_slice and try_read give it back and take exactly these bytes. Fewer bytes are never taken for a header: read reports UnexpectedEof, read_from_slice NotEnoughData(29), try_read on seekable and buffered sources NotEnough with the exact number of missing bytes, and the source stays where it was.", "quantifier": "all header values, everything that may follow, every length of the prefix, every lawful source", "why_tests_cant": "2^129 headers and every source and position", "anchors": ["brec/src/packet/header/read.rs:18-151", "brec/src/packet/header/write.rs:16-27"]}
{"id": "C87", "title": "What the streaming reader makes of any packet with a readable header", "statement": "For every packet whose header can be read, whatever follows the header, the report of PacketBufReaderDef::read and the fate of the packet are determined by its bytes and the rules: a block that cannot be read, too many blocks, blocks refused by a filter, an unreadable payload header, a payload refused by the raw filter, an undecodable payload or a packet refused or accepted by the packet filter each give their report; a packet that is dropped with its report costs nothing but itself, and a stream of such packets, sound or not, gets exactly one report for each.", "quantifier": "all protocols, rules, header fields, bytes after the header, foreign bytes before it, everything that follows, every division into pieces (of at least 29 bytes if 21 or more foreign bytes precede a packet)", "why_tests_cant": "the bytes after the header are arbitrary; tests damage a few chosen bytes", "anchors": ["brec/src/packet/reader.rs:281-446", "brec/src/packet/rules.rs"]}
{"id": "C88", "title": "The numbers reported while waiting", "statement": "While a stream of packets arrives in pieces, every answer of the streaming reader that is not a report about a packet is NotEnoughData(n), where n is exactly the number of bytes missing of the header or, once it is known, of the packet that is next to be reported; only right after the header was completed from pieces n may be 0.", "quantifier": "all protocols, rules, streams of sound or damaged packets, every division into chunks, every call", "why_tests_cant": "every division of every stream; the tests only look at the packets found", "anchors": ["brec/src/packet/reader.rs:154-252", "brec/src/packet/reader.rs:291-355"]}
{"id": "C89", "title": "A file storage shared by several processes", "statement": "Processes that open, fill and close the same file storage under its lock, in any interleaving, leave the storage of exactly the packets whose insert came back, in that order, as if one writer had inserted them; every insert that comes back succeeds. If processes die, also within an insert, the file contains in addition some of the packets of the interrupted inserts; it is either a storage that readers and the next holder of the lock can open, or it cannot be opened by anybody, and then all these packets are still at their places.", "quantifier": "every interleaving of lock requests, opens, inserts, closes and deaths of any number of processes on any number of files; all inserted packets can be encoded; files below 2^63 bytes; nobody removes the lock file", "why_tests_cant": "schedules, histories and crash points are unbounded; the claim is about the composition of the lock with the storage", "anchors": ["brec/src/storage/writer/locker.rs: FileWriterDef::new, insert", "brec/src/storage/writer/mod.rs: WriterDef::new, insert"]}
{"id": "C90", "title": "A reader that reloads while a writer inserts", "statement": "A reader of a storage may call reload at any number of moments of an insert made by a writer on the same file, however the writes of the insert are split. Each call reports 0 or 1 new packets or that a table is damaged; over all calls, including one after the insert, the packet is announced exactly once; the reader is then up to date; and the packets that were there before stay readable from the reader at all these moments.", "quantifier": "every storage, every reader in use, every further packet shorter than 2^32 bytes, every increasing sequence of moments (numbers of bytes that have arrived); files below 2^63 bytes", "why_tests_cant": "the moments between the bytes of an insert cannot be hit on purpose, and the claim is about all of them and all sequences", "anchors": ["brec/src/storage/reader/mod.rs: ReaderDef::reload, nth", "brec/src/storage/writer/mod.rs: WriterDef::insert", "brec/src/storage/slot/mod.rs: TryReadFrom for Slot"]}
{"id": "C91", "title": "Opening storages in a release build", "statement": "In a build without overflow checks, opening any file as a storage, for reading or for writing, ends and gives what a build with the checks gives wherever that one does not panic because of them. Otherwise it gives a storage whose slots are the complete tables of the file, or an error, and does not panic. In particular what an interrupted insert leaves is either opened, with all the packets from before and ready for further inserts, or rejected with an error.", "quantifier": "every file below 2^63 bytes; every storage, every packet, every point at which the insert is cut off", "why_tests_cant": "the tests run in a debug build, where these cases are panics; and the files and the points of interruption are unbounded", "anchors": ["brec/src/storage/reader/mod.rs: ReaderDef::new, load", "brec/src/storage/writer/mod.rs: WriterDef::new, load", "brec/src/storage/slot/read.rs: TryReadFrom for Slot", "brec/src/storage/slot/header.rs: TryReadFrom for SlotHeader"]}
{"id": "C92", "title": "Reloading in a release build", "statement": "In a build without overflow checks, a reader may call reload at any number of moments of an insert made by a writer on the same file. No call panics; each reports 0 or 1 new packets or an error; over all calls, including one after the insert, the packet is announced exactly once; the reader is then up to date; and the packets that were there before stay readable from the reader at all these moments. Where a build with the checks does not panic the calls give the same.", "quantifier": "every storage, every reader in use, every further packet shorter than 2^32 bytes, every increasing sequence of moments (numbers of bytes that have arrived); files below 2^63 bytes", "why_tests_cant": "the moments between the bytes of an insert cannot be hit on purpose, the claim is about all of them, and debug builds behave differently", "anchors": ["brec/src/storage/reader/mod.rs: ReaderDef::reload, count, nth", "brec/src/storage/slot/read.rs: TryReadFrom for Slot"]}
{"id": "C93", "title": "The streaming reader in a release build", "statement": "In a build without overflow checks the streaming reader gives what a build with the checks gives wherever that one does not panic because of them. It never panics, whatever the bytes and however they are cut into system reads. From a stream of packets and foreign bytes it reports every packet once and in order, with the verdict of the rules, and it never returns a packet that is not a section of the stream.", "quantifier": "every stream below 2^63 bytes, every cutting into system reads, every failure of the source, every set of rules, every number of calls", "why_tests_cant": "the tests run in a debug build, where the cases that differ are panics; streams, cuttings and rules are unbounded", "anchors": ["brec/src/packet/reader.rs: PacketBufReaderDef::read, resolve_header_refill, resolve_header_ready"]}
{"id": "C94", "title": "Reading single packets and seeking in a release build", "statement": "In a build without overflow checks nth, nth_filtered and seek give what a build with the checks gives wherever that one does not panic because of them. Reading a single packet never panics, whatever the tables and whatever became of the file, and reads only at the place the tables give; seeking never panics.", "quantifier": "every file below 2^63 bytes, every list of tables the reader knows, every packet number, every set of rules", "why_tests_cant": "the tests run in a debug build, where the cases that differ are panics; files, tables and numbers are unbounded", "anchors": ["brec/src/storage/reader/mod.rs: nth, nth_filtered, seek", "brec/src/packet/read.rs: TryReadFrom for PacketDef", "brec/src/storage/reader/iters.rs: PacketsLocatorIterator::from"]}
{"id": "C95", "title": "Iterating and ranges in a release build", "statement": "In a build without overflow checks the iterators of a storage that was opened give, call by call, what a build with the checks gives. They do not panic, they end, and they miss no packet that nth finds. Ranges give what nth gives for their numbers and do not panic, whatever the tables and whatever became of the file.", "quantifier": "every file below 2^63 bytes, every list of tables the reader knows, every set of rules, every range, every number of calls", "why_tests_cant": "the tests run in a debug build and on files the writer made; files, tables and rules are unbounded", "anchors": ["brec/src/storage/reader/iters.rs: PacketsLocatorIterator::next, ReaderIterator::next, ReaderFilteredIterator::next, ReaderRangeIterator::next, ReaderRangeFilteredIterator::next"]}
{"id": "C96", "title": "Inserting in a release build", "statement": "In a build without overflow checks inserting into a storage that was opened gives the same result, bytes and state as in a build with the checks, whatever the file answers, and every history of inserts and reopenings gives the same file. An insert that reports success leaves the packets that could be read before as they were.", "quantifier": "every file below 2^63 bytes, every packet, every schedule of answers of the file, every history of inserts and reopenings", "why_tests_cant": "the tests run in a debug build and on files the writer made; files, histories and faults are unbounded", "anchors": ["brec/src/storage/locator.rs: FreeSlotLocator::next", "brec/src/storage/writer/mod.rs: WriterDef::insert", "brec/src/storage/slot/mod.rs: get_free_slot_offset"]}
