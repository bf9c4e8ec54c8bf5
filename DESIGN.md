# Formal model of icsmw/brec: design

The code is in `/repo` (crates `brec` and `brec_macros`).  It is read as text; nothing
in it is compiled or changed.  Everything below is Coq 8.16.1, standard library only.

## How the model is organised

| file (rocq/theories) | what it models |
|---|---|
| `Base.v` | bytes, little-endian integers, results (`Ok`/`Err`/`Panic`), error values |
| `Crc32.v` | crc32fast (CRC-32/ISO-HDLC), bit by bit |
| `Io.v` | `Read`, `Read+Seek`, `BufRead` sources (any sequence of chunks and errors), sinks with short writes and errors |
| `Block.v` | code generated for blocks: signature, size, CRC, four readers, three writers, the `Block` enum dispatch |
| `Payload.v` | `ByteBlock`, `PayloadHeader`, `SafeHeaderReader`, payload readers and writers, the `Payload` enum dispatch, `Vec<u8>`, `String` |
| `Packet.v` | `PacketHeader`, `PacketDef` readers and writers |
| `Rules.v` | `RulesDef`, `PacketDef::filtered` |
| `Slices.v` | `IoSlices::write_vectored_all` |
| `StreamReader.v` | `PacketBufReaderDef` |
| `BufReader.v` | `BufferedReader` |
| `File.v` | a file whose writes and flushes can fail |
| `Slot.v`, `Storage.v` | slots, locator, storage writer, storage reader, iterators, reload |
| `Release.v` | opening and reloading storages in a release build |
| `ReleaseStream.v` | the streaming reader in a release build |
| `ReleaseRead.v` | reading single packets and seeking in a release build |
| `ReleaseIter.v` | iterators and ranges in a release build |
| `ReleaseWrite.v` | inserting into a storage in a release build |
| `Macros.v` | the macro front end: attributes, names, field types, declarations, the collector and the enums it generates |
| `Locker.v`, `Sensor.v`, `Shared.v` | the lock file protocol and the notification protocol as transition systems with any number of callers and threads; the locks together with real storage files and writers |
| `Spec.v`, `SpecCrc.v`, `SpecStorage.v`, `SpecLocker.v`, `SpecShared.v`, `SpecPoll.v`, `SpecRelease.v`, `SpecReleaseStream.v`, `SpecSensor.v`, `SpecMacros.v`, `SpecJudge.v` | vocabulary of the claims: legal inputs, documented format, corruption, chunking, histories |
| `*Proofs.v` | lemmas |
| `Samples.v` | a small protocol and packets for the examples |
| `Props*.v` | the theorems, one or several per property, each with an `Example` that meets its hypotheses and `Print Assumptions` |

Every definition cites the file and lines it models; what it leaves out is said there.
Panics (index out of range, arithmetic overflow, capacity overflow, `unwrap` on an error) are an
explicit outcome `Panic`, never a default value.  Overflow panics are those of a debug build; a release
build wraps around instead, which `Release.v` models for opening and reloading storages,
`ReleaseStream.v` for the streaming reader, `ReleaseRead.v` for `nth`, `nth_filtered` and `seek`,
`ReleaseIter.v` for iterators and ranges, and `ReleaseWrite.v` for inserting.

Names: `..._refuted` is a counterexample to the property as stated in properties.jsonl, with its witness;
`..._partial` is the part of such a property that holds, with the missing part named in its comment.

## Wrong programs

`seeded/LOG.jsonl` lists wrong programs that were tried against the theorems: one line per edit of a model definition (a wrong
boundary, a missed case, a swapped argument, a dropped update) made in a copy of the development.  `claim` says which property the
edit breaks, `failed` which theorems no longer prove (a run stops when those of the property in question are among them),
`failed_proofs` the lemmas where this shows, `tightened` the theorems that were strengthened because the edit went unnoticed.  Edits
without effect on any claim are marked as such in `note`.  A failure means that a proof as written no longer goes through; by
itself it does not show that the theorem became false.  Some edits that change nothing broke only a script; those that were
noticed say so in `note`, and others may be among the lines without one.  For the release build the edits of inserting (`b5`),
reading single packets (`b7`), iterating (`b4`, without those of `rel_t_fetch`) and streaming (`b8`) were checked once more by computing both programs on sample inputs; the notes of those lines
say where no difference was found.  The other lines were not checked in this way.

## Trusted base

* the Coq kernel and `vm_compute`;
* no axioms: `Print Assumptions` gives "Closed under the global context" for every theorem of every `Props*.v` file
  (coqchk also lists constants of the library module Coq.ssr.ssrunder, loaded through lia; no theorem uses them);
* the reading of the Rust text into Gallina, definition by definition;
* the contracts of `std::io::{Read, BufRead, Seek, Write}`, `Vec`, `Cursor`, `BufReader`, `File` as stated in `Io.v`
  and `File.v`; the answers of the system to reads, writes and flushes are arbitrary (oracles);
* the user's code: payload codecs are arbitrary functions, linked enums arbitrary conversions, filter callbacks arbitrary pure
  functions; hypotheses of the theorems say when a codec has to be right;
* crc32fast computes CRC-32/ISO-HDLC, modelled bit by bit and proved equal to the polynomial definition of the standards (C73);
* the operating system's file locks: exclusive, tied to the inode and the open handle, released on close or death; the clock of
  `wait_or_fail` is arbitrary;
* `std::sync::atomic` and the channel of the sensor as sequentially consistent single steps.

Modelled parts of the code: `brec/src/packet`, `brec/src/payload` (header, defaults), `brec/src/traits` (read, write, props,
slices, BufferedReader), `brec/src/storage` (slot, locator, writer, reader, iterators, locker, sensor); of `brec_macros` the code
generated for blocks, payloads and the two enums (`codegen`, `tokenized`, `collector`), the signature text (`entities`) and the
meaning of attributes and declarations (`parsing`, `entities`, `generate`).

Not modelled: the tokenizer and `syn` (the macros start from expressions and types), generic arguments in paths, what rustc refuses
after expansion beyond the variants of the enums, visibility; `bincode`/`serde` (an arbitrary codec); the `notify`
crate; log output; memory exhaustion below the capacity-overflow limit; weak memory orders; the 4 GiB reservation of
`PacketBufReaderDef::new`; `ObserverDef`, which has no methods; that files refuse to seek to 2^63 and beyond (an error, where
`std::io::Cursor`, which is modelled, goes on: it matters only for tables that announce so many bytes).

## Findings

Every item is a theorem or a computed example in the `Props*.v` files (property in brackets).

1. `Block::try_read` leaves the position after the signature when the body is truncated (C13).
2. `Block::read` on a plain source finds only the type tried first: the signature of the others is consumed (C15).
3. `read_from_slice(.., skip_sig = true)` counts the signature in its offsets and rejects every block; on some inputs it panics (C16).
4. The limit of 255 blocks is enforced differently by `write_all` (not at all), `read`/`try_read` (256), `filtered` (not at all) and
   the streaming reader (255) (C19).
5. `Packet::try_read` reports 29 bytes too few as missing and moves the position; a cut payload header is an error instead of
   `NotEnoughData` (C20).
6. Payload checksums longer than four bytes, although documented, break the packet's size field (C21).
7. A 29-byte packet header announcing 2^63 bytes makes `read` and `filtered` panic; a header announcing more blocks than packet or
   an overflowing size makes the streaming reader panic (C22).
8. With chunks shorter than 29 bytes and at least 21 foreign bytes before a packet the streaming reader can underflow (panic) or lose
   the last packet; C28_any_chunks says that nothing else can happen (C28).
9. A truncated packet at the end of a stream gives `NotEnoughData` for ever (C30).
10. A transient error inside a packet loses it, and so does one right after a packet without blocks and payload that came in two pieces (C31).
11. A damaged packet header or payload, too many blocks, or a header CRC mismatch makes the streaming reader return the same error
    for ever (C32).
12. `seek(n)` iterates correctly only to the end of the slot of packet `n`; behind it the packets of the sought slot come again, or errors (C37).
13. `reload` misses packets whenever the new packets cross a slot boundary; it reports 500 too few when the new last slot is full; it
    misses everything when the two table checksums collide (C39).
14. A changed capacity in a slot table can be accepted as a different slot (C40).
15. A crash between the two writes of `insert` leaves a storage that can never be opened again: a panic in a debug build, an error
    in a release build (C42).
16. After a failed write the in-memory slot counts the packet: the next insert leaves a hole of zeros and the count is too large. When the failed
    insert was the one to fill a slot, the next insert starts a new slot behind a gap and the storage cannot be opened any more (C44).
17. A table whose checksum happens to be the first half of the packet signature stops the recovery of a storage with the streaming
    reader (C45, packets of 370, 67, 145 and 377 bytes).
18. The lock file replaces the extension: `data.a` and `data.b` exclude each other; a storage called `x.lock` is its own lock file (C48);
    removing the lock file lets a second writer in (C46).
19. Content that exists when the sensor is created is not announced (C49); a failing metadata call or watcher error loses a wake (C49);
    a wake can arrive for data already acknowledged (C56).
20. `BufferedReader`: `refill` as documented overwrites preloaded bytes; `consumed` is wrong when a `consume` crosses the preload; a
    failing `read` drops the preload (C51).
21. The signature of a block does not contain its path, against the documentation; different names can collide (Plumless and Buckeroo) (C53).
22. The payload hooks are never called (C54).
23. Flag and bool bytes other than 0 and 1 are accepted without affecting the checksums; slice and stream readers read such a bool
    differently (C55).
24. A block field named `crc` of type `[u8; 4]` receives the checksum instead of its value (C57).
25. `PacketHeader::try_read` on a buffered source consumes 58 bytes instead of 29 (C67; not used by the library itself).
26. `PacketHeader::get_pos` does not see a signature in the last eight bytes of a buffer (C68).
27. `FreeSlotLocator::setup` resets the index but not the offset (`Storage.lc_setup`); harmless in the calls the library makes.
28. A String payload is decoded lossily before its checksum is compared: one changed byte in the text `jkaicode` is read as a different
    text without an error (C58).
29. Types in different modules can get the same variant name; the second one is dropped without a message (C59).
30. Payload signatures collide (Plumless and Buckeroo); the type that wins depends on the order of a hash map, so on the build (C60).
31. If all blocks derive `Default` the generated enum derives it too, which rustc refuses (C61).
32. Unknown words in `#[block(..)]` and `#[payload(..)]` are ignored: `nocrc` keeps the checksum on, a path of one segment has no effect (C62).
33. `generate!(no_default_payload)` together with payloads of one's own generates code that names missing variants (C63).
34. `#[payload(no_crc)]` without `bincode` has no effect; with `bincode` a checksum field other than zero is still refused (C65).
35. `Packet::write` and `write_all` write header and blocks before they find out that the payload cannot be encoded; the header announces bytes that
    never come, and a reader loses the packet written next (C66).
36. `Slot::try_read` computes the number of missing bytes of an incomplete slot as `PacketHeader::ssize() - needed` (slot/read.rs:76): the
    subtraction underflows for every slot with room for two packets or more, the default of 500 included; for smaller ones the number is unrelated
    to what is missing (C70). A storage cut inside a slot table therefore cannot be opened in a debug build.
37. `seek` past the end reports `OutOfBounds` with the number of places in all slots, not the number of packets (C37).
38. The buffered `Packet::try_read` compares the buffered bytes with the size in the header without the header's own 29 bytes
    (packet/read.rs): a packet of which less is missing is partly consumed and lost (C74). The same comparison in the seekable `try_read` costs
    only the position (C20).
39. The lengths in a slot are not validated when a storage is opened. An unused entry before used ones (a hole) makes the width of the slot and the places
    of its packets disagree: `nth` seeks behind the end of the file and panics (C76), `seek` computes a negative length and panics (C78). `nth` and `count` also take
    every slot to have 500 entries although the file says how many there are (C76).
40. A trait that is common to all payloads and also listed in `payloads_derive` is derived twice for the generated enum, which the compiler refuses (C61).
41. Bytes behind the contents of a packet are ignored when the header's size counts them: packets of different lengths are read as the same packet (C55).
42. The readers disagree about payloads with long checksums: `read` always fails with UnexpectedEof and leaves the end of the packet in the source,
    so that the next read starts in the middle of it, while both `try_read`s succeed (C21).
43. While the streaming reader is stuck on a packet it refuses but does not drop (finding on C32), the foreign bytes in front of that packet are handed to the ignore callback again at every call; and when a damaged header arrives in pieces, the buffered pieces are thrown away without reaching the ignore callback (C19_stream_stuck, C32_header_stuck, C32_header_pieces).
44. Inserting trusts the tables found in the file. If a table other than the last has a free entry at its end (a storage written with another default capacity, or two storages joined), the writer puts the packet behind that table's packets, over the next table: the storage cannot be opened any more. If a table has an unused entry before a used one, the new entry goes there and the entries behind it, not counted before, count again: opening panics (C82).
45. A reader does not survive a file that becomes shorter than its tables say: `nth` panics on a subtraction, iterating and `seek` on an `unwrap` (brec/src/storage/reader/iters.rs), `reload` on a subtraction (C83, C84). `reload` does not look at any table before the last, so other changes stay unnoticed, and when it fails after having found new tables they are kept while the locator is not updated: `count` then takes all of them for full (C84).
46. A reader that follows a storage with `reload` while it is written (the use that the file sensor is meant for) panics when the call falls between the bytes of an insert that begins or fills a slot: `available` or the size of an incomplete table is subtracted from less (C90_boundary). Within a slot a call in the middle of an insert gives `DamagedSlot(CrcDismatch)` or already counts a packet whose bytes are not there yet; the next call is right again (C90_poll_partial).
47. In a release build opening a storage need not end: the size of a table and what it announces are added without a check, and a table for which the sum is 2^64 is taken up again and again, each time with a further slot in memory. 28 bytes are enough (C91_ends_refuted). A debug build panics.
48. In a release build the panics of finding 46 become errors (`Io(UnexpectedEof)`), but `reload` has already recorded the slot when it gives up; the next call finds nothing new. The packet is counted and can be read, but no call of `reload` announces it (C92_announced_refuted), so a program that handles the number of new packets that `reload` reports misses it.
49. In a release build the panic of the streaming reader on short system reads (C28_underflow_refuted) becomes silent loss: `sgmt.end() - buffered` wraps, `consume` takes everything the last read delivered (up to the size of the `BufReader`), and the bytes of later reads are taken for the body of the packet whose header was found. Packets are lost without an error (C93_lost_refuted), the loop may wait for ever, and a packet may be returned that nobody sent (C93_invented_refuted): payloads carry a checksum and so do blocks, but the header's checksum does not cover them.
50. In a release build the panics of `nth` on damaged or shortened files (findings on C76 and C83) become `Io(UnexpectedEof)` errors, which is what one would want in both builds (C94_nth). Seeking behind a hole still panics: `location.end() - location.start()` wraps and `vec![0; size]` overflows the capacity (C94_seek_refuted). A table whose lengths add up to more than 2^64 opens without an error, and several packet numbers then give the same packet (C94_beyond_refuted).
51. In a release build a storage opens although its tables announce 2^64 bytes and more, and may lead back to earlier places. Iterating then ends early (C95_missed_refuted) or panics with a capacity overflow (C95_panic_refuted), while `nth` and ranges do not panic (C94, C95_ranges).
52. A release build opens a storage whose lengths add up to more than 2^64; the next insert may then be placed inside an earlier packet, overwrites it and reports success (C96_overwrites_refuted).

## Properties

### C01 Packet write/read round trip (Read) — proved

* modelled in: Packet, Block, Payload, Io
* proof: Induction over the block list and the field list for an arbitrary schema; readers are abstract ("lawful": `read_exact` takes exactly the next bytes), instantiated for plain, seekable and buffered sources.
* theorems: `C01_read_round_trip`, `C01_sources_lawful`, `C01_texts_and_bytes`

### C02 Packet write/try_read round trip (Read+Seek) — proved

* modelled in: Packet, Block, Payload (try_read), Io cursor
* proof: As C01 for the seekable readers; the position after the call is computed exactly.
* theorems: `C02_try_read_round_trip`

### C03 Packet round trip through BufRead — proved

* modelled in: Packet, Block, Payload (buffered), Io bufsrc
* proof: As C01 for the buffered readers; the remaining buffer and the remaining chunks are computed exactly.
* theorems: `C03_buffered_round_trip`

### C04 Encoded length law — proved

* modelled in: Packet, Block, Payload; format written down separately in Spec.v (`layout_header`, `block_layout`, `payload_header_layout`)
* proof: The bytes written equal the layout; lengths by arithmetic. Field bytes, type names and decimal digits are compared with independent definitions (LayoutProofs.v).
* theorems: `C04_length_law`, `C04_layout`

### C05 All write paths produce the same bytes — proved

* modelled in: Block, Payload, Packet write paths, Slices
* proof: Invariant of the grouping of fields into slices; induction over blocks.
* theorems: `C05_packet_write_paths`, `C05_block_write_paths`, `C05_payload_write_paths`

### C06 Vectored write delivers everything under any partial writes — proved

* modelled in: Slices, Io sink
* proof: Induction over the answers of the sink (any partial write schedule).
* theorems: `C06_vectored_write`, `C06_vectored_write_succeeds`, `C06_collected`, `C06_packet_vectored`

### C07 Non-retrying packet write reports a true prefix — proved

* modelled in: Packet, Io sink
* proof: Case analysis over where the sink stops, induction over blocks.
* theorems: `C07_write_prefix`, `C07_write_all_prefix`, `C07_faults_reported`

### C08 Block write/read round trip — proved

* modelled in: Block
* proof: Induction over the field list for every schema; all four readers.
* theorems: `C08_block_round_trip`

### C09 Block corruption is never accepted as a different value — proved

* modelled in: Block, Crc32
* proof: The CRC register is linear and one step is injective, so a change of at most 32 bits inside four consecutive bytes always changes the checksum (also across the border between data and stored checksum).
* theorems: `C09_block_corruption`

### C10 Packet header corruption is detected — proved

* modelled in: Packet, Crc32
* proof: As C09 for the header fields; signature by comparison.
* theorems: `C10_header_corruption`, `C10_signature_change`

### C11 Raw payload corruption is detected — proved

* modelled in: Payload, Crc32
* proof: As C09.
* theorems: `C11_raw_payload_corruption`

### C12 A truncated block is never accepted — proved

* modelled in: Block
* proof: Length arguments for every strict prefix.
* theorems: `C12_truncated_block`

### C13 try_read on a block leaves the position unchanged unless it succeeds — partial

* modelled in: Block
* proof: Computed witness; exact positions otherwise.
* theorems: `C13_position_refuted`, `C13_position_partial`
* False as stated: on a truncated body the position is left after the signature (C13_position_refuted). Proved: exact positions for all truncated or mismatching inputs.

### C14 Block dispatch does not depend on declaration order — proved

* modelled in: Block enum
* proof: Dispatch equals "pick the schema with the signature of the next four bytes"; permutation invariance of that.
* theorems: `C14_block_dispatch_order`, `C14_block_dispatch_finds`

### C15 Stream dispatch of blocks finds every declared type — partial

* modelled in: Block enum
* proof: Computed witness; proof for the first type.
* theorems: `C15_stream_dispatch_refuted`, `C15_stream_dispatch_partial`, `C15_types_in_turn`, `C15_later_type`
* False as stated: the stream dispatch only reads blocks of the type tried first (refuted). Proved for the first type; C15_types_in_turn and C15_later_type say for every source what happens for the others (each type asked in vain swallows four bytes).

### C16 read_from_slice without signature reads the same block — partial

* modelled in: Block
* proof: Length argument: no block is ever accepted; proof with four bytes in front.
* theorems: `C16_skip_signature_refuted`, `C16_never_accepted`, `C16_skip_signature_partial`
* False for every block: read_from_slice(skip_sig = true) counts the signature in its offsets (C16_never_accepted). Proved: works when four bytes precede the fields.

### C17 Payload header round trip — proved

* modelled in: Payload
* proof: Generic in the length byte.
* theorems: `C17_payload_header_round_trip`, `C17_bad_lengths_rejected`

### C18 Payload header try_read is all-or-nothing — proved

* modelled in: Payload
* proof: Case analysis over where the header is cut.
* theorems: `C18_payload_header_all_or_nothing`

### C19 Documented block limit is enforced consistently — partial

* modelled in: Packet, Rules, StreamReader
* proof: Witnesses with 256 and 257 blocks; round trips up to 255.
* theorems: `C19_stream_limit_refuted`, `C19_stream_stuck`, `C19_stream_pieces`, `C19_block_limit_refuted`, `C19_block_limit_partial`
* False as stated: 257 blocks are written and accepted by filtered but rejected by read and try_read; 256 blocks are read by read but refused by the streaming reader. Complete description proved: read and both try_reads take every packet of up to 256 blocks and refuse every longer one with the blocks limit, filtered takes any number (C19_block_limit_partial); the streaming reader takes up to 255 and, for more, gives the same error for ever when the packet came whole and gives it once and goes on after the packet when it came in pieces (C19_stream_stuck, C19_stream_pieces).

### C20 NotEnoughData of Packet::try_read is honest — partial

* modelled in: Packet
* proof: Witnesses; case analysis over every strict prefix.
* theorems: `C20_try_read_refuted`, `C20_error_refuted`, `C20_try_read_partial`
* False as stated: between 29 bytes and size bytes the position is moved by 29; a truncated payload header is an error. Proved: complete description of the outcome for every strict prefix.

### C21 Payloads with any documented checksum length survive a packet round trip — partial

* modelled in: Payload, Packet
* proof: Witness with an 8-byte checksum; the size field is computed in general.
* theorems: `C21_long_streaming`, `C21_checksum_length_refuted`, `C21_size_field`, `C21_checksum_length_partial`, `C21_long_checksum`
* False for checksums longer than four bytes; the reason is C21_size_field. Proved for four bytes. C21_long_checksum and C21_long_streaming give the outcome for every longer one: read and filtered fail and leave the end of the packet in the source, both try_read return the packet, the streaming reader reports one error or the same error for ever.

### C22 Decoding never panics on hostile bytes — partial

* modelled in: all readers
* proof: Witnesses; a structural no-panic proof for every reader.
* theorems: `C22_stream_only_underflow`, `C22_stream_panic_refuted`, `C22_stream_no_panic_partial`, `C22_no_panic_refuted`, `C22_no_panic_partial`
* False: a 29 byte header announcing 2^63 bytes panics read and filtered; a header with blocks longer than the packet or an overflowing size panics the streaming reader. Proved: try_read never panics, this is the only way for read and filtered, and the streaming reader never panics on streams without such headers when no system read is shorter than 29 bytes. With shorter reads the subtraction behind a refill is the only thing that panics on such streams (C22_stream_only_underflow).

### C23 One rule per kind — proved

* modelled in: Rules
* proof: Invariant over all histories of add and remove.
* theorems: `C23_one_rule_per_kind`

### C24 Filter verdicts depend only on the rule of their own kind — proved

* modelled in: Rules
* proof: Same invariant.
* theorems: `C24_filter_verdicts`

### C25 Filtered packet reading — proved

* modelled in: Rules, Packet
* proof: Induction over blocks.
* theorems: `C25_filtered_read`, `C25_denied_without_payload`

### C26 Streaming reader on a pure packet stream — proved

* modelled in: StreamReader
* proof: Invariant relating reader state and unread source to the remaining stream, for every chunking and every rule history.
* theorems: `C26_pure_stream`

### C27 Streaming reader with filters — proved

* modelled in: StreamReader, Rules
* proof: Same invariant.
* theorems: `C27_filtered_stream`

### C28 Streaming reader on mixed streams — partial

* modelled in: StreamReader
* proof: Same invariant with garbage between packets; witnesses for short chunks.
* theorems: `C28_underflow_refuted`, `C28_lost_packet_refuted`, `C28_mixed_stream_partial`, `C28_any_chunks`
* False as stated: when some chunks are shorter than 29 bytes and 21 or more foreign bytes precede a packet, the reader can panic (C28_underflow_refuted) or lose the last packet (C28_lost_packet_refuted). Proved for all chunkings when fewer than 21 foreign bytes precede each packet, and for chunks of at least 29 bytes otherwise (C28_mixed_stream_partial); C28_any_chunks gives every outcome for all chunkings.

### C29 Streaming reader makes no packets up — proved

* modelled in: StreamReader
* proof: Every reported packet is a decodable section of the stream; sections in order, no overlap; no hypothesis on the stream or the source.
* theorems: `C29_no_invented_packets`

### C30 Reading always terminates — partial

* modelled in: StreamReader
* proof: A measure decreases with every call that is not the waiting state; witness for the waiting state.
* theorems: `C30_termination_refuted`, `C30_termination_partial`
* False as stated: a truncated packet at the end gives NotEnoughData for ever. Proved: in at most three calls per byte the loop ends or reaches exactly this waiting state.

### C31 Transient source errors do not lose packets — partial

* modelled in: StreamReader, Io faults
* proof: Invariant with faults; witness.
* theorems: `C31_transient_error_refuted`, `C31_complete_packet_refuted`, `C31_after_error`, `C31_transient_error_partial`
* False as stated: an error inside a packet loses it, and so does an error right after a complete packet without blocks and payload whose header came in pieces. Proved for errors at every other place of a stream of packets, in any chunking: all packets before the error are reported, the error is reported once, and afterwards (C31_after_error: from any state) the reader does what a new one would do with the rest.

### C32 A damaged packet does not block the stream — partial

* modelled in: StreamReader, Crc32
* proof: C09 inside the stream invariant; witnesses.
* theorems: `C32_header_damage_refuted`, `C32_payload_damage_refuted`, `C32_header_stuck`, `C32_header_pieces`, `C32_payload_stuck`, `C32_payload_pieces`, `C32_block_damage_partial`
* False as stated: damage in a packet header or payload that arrived in one chunk gives the same error for ever. Proved: damage in checksummed blocks costs at most the damaged packets, under any chunking; for headers and payloads both fates are described for every packet and every following input: whole in a chunk, the same report for ever (C32_header_stuck, C32_payload_stuck); arriving in pieces, one report and the stream goes on (C32_header_pieces, C32_payload_pieces). All other damage behind a readable header, such as an unreadable payload header, is covered by C87.

### C33 Storage is an append-only list — proved

* modelled in: Slot, Storage, File
* proof: The file is the documented layout after every history of inserts and reopenings; reading gives the list.
* theorems: `C33_layout`, `C33_reader_in_use`, `C33_append_only_list`

### C34 Reopening a writer continues the same list — proved

* modelled in: Slot, Storage
* proof: Opening a file of the layout gives the same writer state.
* theorems: `C34_reopening_changes_nothing`

### C35 nth is list indexing — proved

* modelled in: Storage
* proof: Offset arithmetic over groups of 500.
* theorems: `C35_nth_is_indexing`

### C36 range is list slicing — proved

* modelled in: Storage
* proof: Induction over the range.
* theorems: `C36_range_is_slicing`

### C37 seek(n) iterates from packet n to the end — partial

* modelled in: Storage iterators
* proof: Witness and general description behind the sought slot; induction up to its end.
* theorems: `C37_seek_out_of_bounds`, `C37_seek_partial`, `C37_behind_the_slot`, `C37_seek_refuted`
* False as stated: after seek the iterator stands at the start of the sought slot, so behind that slot it gives the first packet of the sought slot again or errors (C37_behind_the_slot, for all storages; C37_seek_refuted). Proved: out-of-bounds errors; the packets up to the end of the sought slot; the whole claim when the packet is in the last slot.

### C38 Filtered storage iteration is filter of iteration — proved

* modelled in: Storage iterators, Rules
* proof: Induction over slots and packets.
* theorems: `C38_filtered_iteration`, `C38_range_filtered`

### C39 reload sees exactly the new packets — partial

* modelled in: Storage reload
* proof: State invariant `reading`; general theorem for boundary crossing; computed CRC collision.
* theorems: `C39_reload_partial`, `C39_reload_each_packet_partial`, `C39_crossing_loses`, `C39_two_slots_refuted`, `C39_full_slot_refuted`, `C39_checksum_blind`, `C39_checksum_refuted`
* False as stated: (a) new packets that cross a slot boundary are always missed in part (C39_crossing_loses, for all storages), (b) the number reported is 500 short when the new last slot is full, (c) table checksums can collide (C39_checksum_blind, packets of 324, 81, 77, 247 bytes). Proved for all other cases, in particular for reloading after each packet.

### C40 Slot codec round trip and validation — partial

* modelled in: Slot, Crc32
* proof: CRC burst theorem; witness.
* theorems: `C40_slot_round_trip`, `C40_slot_writes`, `C40_table_corruption_partial`, `C40_signature_change`, `C40_capacity_refuted`
* False as stated: one changed byte of the capacity moves the place where the checksum is looked for, and a different slot can be accepted. Proved: round trip; corruption of lengths or checksum is always detected; a changed signature is always reported.

### C41 Slot bookkeeping — proved

* modelled in: Slot
* proof: Induction over inserts.
* theorems: `C41_slot_bookkeeping`

### C42 Crash during insert keeps the storage usable — partial

* modelled in: Storage, File
* proof: The file after an interrupted insert is described byte by byte (`crash_shape`); then the open is computed.
* theorems: `C42_crash_partial`, `C42_leftover_harmless`, `C42_between_the_writes`, `C42_crash_refuted`
* False as stated: a crash between the two writes of insert makes every later open panic (debug build), a partly overwritten table gives DamagedSlot (C42_between_the_writes for all storages, C42_crash_refuted). Proved: every crash point leaves the storage as before (up to 15 harmless bytes), complete, or impossible to open - never wrong content; the packets themselves stay recoverable (C45_recovery_after_crash).

### C43 Crash or failed insert never damages bytes of earlier packets — proved

* modelled in: Storage, File
* proof: Invariant over any schedule of write and flush answers.
* theorems: `C43_packets_stay`

### C44 A failed insert leaves the storage as it was — partial

* modelled in: Storage, File
* proof: Witnesses; invariant of a writer whose file may differ from its memory in the last table and in zeros at the end.
* theorems: `C44_unencodable_partial`, `C44_failed_flush`, `C44_failure_refuted`, `C44_recovery`, `C44_slot_end`, `C44_slot_end_refuted`
* False as stated: after a failed write the slot in memory already counts the packet, so the next insert leaves a hole and the count is too large (C44_failure_refuted); when the insert fails that was to fill a slot, the next one makes the file unreadable (C44_slot_end, C44_slot_end_refuted). Proved: packets that cannot be encoded change nothing; a failing first flush leaves the file unchanged; after any failures at other places, whatever the answers of the system, the next successful insert leaves a file that readers open, with every stored packet in its place and the rest of the failed ones in theirs (C44_recovery).

### C45 Manual recovery of a storage file — proved

* modelled in: Storage, StreamReader
* proof: The storage file is a mixed stream; instance of the theorem behind C28.
* theorems: `C45_recovery`, `C45_tables`, `C45_recovery_after_crash`, `C45_condition_needed`
* Under the stated condition on the tables; C45_condition_needed shows that it is needed, C45_tables that for packets below 4 GiB it only concerns the table checksum.

### C46 Mutual exclusion of file storages — proved

* modelled in: Locker (transition system)
* proof: Inductive invariant over all interleavings of any number of callers.
* theorems: `C46_mutual_exclusion`, `C46_lock_is_given_back`, `C46_taken`, `C46_system_errors`, `C46_removed_lock_file`
* C46_removed_lock_file shows that the assumption about the lock file is needed.

### C47 Lock waiting respects timeout — proved

* modelled in: Locker
* proof: Induction over rounds.
* theorems: `C47_no_timeout`, `C47_first_free_round`, `C47_timeout`, `C47_one_interval`, `C47_ends`, `C47_new`, `C47_options`

### C48 Different storage files do not share a lock — partial

* modelled in: Locker
* proof: Case analysis over the last dot of the names; witnesses.
* theorems: `C48_distinct_refuted`, `C48_distinct_partial`, `C48_shared`, `C48_both_open`, `C48_own_lock`
* False as stated: the lock file replaces the extension, so data.a and data.b share data.lock (C48_distinct_refuted, C48_shared: exactly then); a storage x.lock is its own lock file. Proved for names with equal extensions; storages with different lock files never hinder each other.

### C49 Sensor never loses a wake-up — partial

* modelled in: Sensor (transition system)
* proof: Inductive invariant over all interleavings; a weight function for termination of threads; witnesses.
* theorems: `C49_old_content_refuted`, `C49_no_wake_lost_partial`, `C49_failures_matter`
* False as stated: content the file has when the sensor is created is not announced until something happens (C49_old_content_refuted). Proved from the first change, event or acknowledgement on, if no event or metadata call fails (C49_failures_matter: needed).

### C50 Sensor acknowledgement is monotone and at most one wake is outstanding — proved

* modelled in: Sensor
* proof: Inductive invariant.
* theorems: `C50_monotone`, `C50_largest`, `C50_wakes`

### C51 BufferedReader delivers the underlying stream — partial

* modelled in: BufReader
* proof: Refinement to the underlying byte list over all call sequences; witnesses.
* theorems: `C51_refill_refuted`, `C51_consumed_refuted`, `C51_read_error_refuted`, `C51_buffered_reader_partial`, `C51_each_call`
* False as stated: refill called as documented overwrites preloaded bytes; consumed() leaves out the preload when consume crosses its end; a failing read drops the preload. Proved for all other call sequences, chunkings and errors; and for every legal call after every sequence of calls, with exactly which bytes are lost or left uncounted (C51_each_call).

### C52 Payload dispatch does not depend on declaration order — proved

* modelled in: Payload enum
* proof: Permutation invariance as C14.
* theorems: `C52_payload_dispatch_order`, `C52_payload_dispatch_finds`, `C52_no_match_consumes_nothing`

### C53 Block signatures distinguish block types — partial

* modelled in: Block
* proof: Unique readability of the signature text; CRC burst theorem; witnesses.
* theorems: `C53_signatures_refuted`, `C53_path_has_no_effect`, `C53_names_refuted`, `C53_signature_partial`
* False: the path is not part of the signature (C53_path_has_no_effect, for all definitions), and different names can share a signature (C53_names_refuted: Plumless and Buckeroo). What holds: the signature is the CRC-32 of a text that determines name and fields, and texts of the same length differing within four bytes never collide (C53_signature_partial).

### C54 Payload hooks run — not applicable

* modelled in: -
* proof: No code calls the hooks, so there is no behaviour to model.
* theorems: -
* The hooks are declared (brec/src/payload/mod.rs:16-30) but no code calls them: there is nothing to model; recorded as a finding in DESIGN.md.

### C55 Canonical decoding — partial

* modelled in: Packet, Block
* proof: Witnesses; re-encoding gives the same bytes otherwise.
* theorems: `C55_canonical_refuted`, `C55_block_refuted`, `C55_canonical_partial`, `C55_slack_refuted`, `C55_block_exact`, `C55_packet_exact`
* False: flag bytes other than 1, bool bytes other than 0 and 1, and bytes behind the contents are accepted. Proved for the header up to its flag byte and for blocks without bool fields; C55_block_exact and C55_packet_exact give the accepted bytes exactly, in both directions.

### C56 A wake announces new data — partial

* modelled in: Sensor
* proof: Inductive invariant; witness.
* theorems: `C56_wake_length`, `C56_news_refuted`
* False as stated: a wake can arrive for data already acknowledged (C56_news_refuted). Proved: the size is a length the file had.

### C57 Field names do not influence reading — partial

* modelled in: Block
* proof: The readers computed on the written bytes; injectivity of the CRC in any four bytes.
* theorems: `C57_crc_name_refuted`, `C57_crc_name`, `C57_names_partial`
* False as stated: a field named crc of type [u8; 4] is replaced by the checksum while reading, so such a block reads as zeros (no checksum) or is refused (C57_crc_name, complete description; C57_crc_name_refuted). Proved for all other names.

### C58 Payload corruption is detected for every payload type — partial

* modelled in: Payload
* proof: CRC burst theorem through an arbitrary codec; a collision as witness.
* theorems: `C58_string_refuted`, `C58_accepted_partial`, `C58_corruption_partial`, `C58_text_partial`
* False as stated: a String is compared after invalid bytes were replaced, so a packet with the text jkaicode whose last byte was changed to 255 is read without error as a different text (C58_string_refuted). Proved: what is accepted always has an encoding with the original checksum; the change is noticed when the damaged bytes are not another spelling of some value, in particular for texts that are still UTF-8.

### C59 Every declared type takes part — partial

* modelled in: Macros (names, Collector)
* proof: Invariant of the insertion-ordered map; injectivity of concatenation; witness.
* theorems: `C59_dropped_refuted`, `C59_first_wins`, `C59_declared_partial`, `C59_payloads_partial`, `C59_same_path_partial`
* False as stated: a::b::Cd and a::BCd get the same variant name, and the second one declared is silently dropped (C59_dropped_refuted). C59_first_wins describes completely what takes part; with different variant names everything does.

### C60 Payload signatures distinguish payload types — partial

* modelled in: Macros, Payload
* proof: CRC burst theorem; a collision as witness.
* theorems: `C60_signatures_refuted`, `C60_signatures_partial`, `C60_who_signs`
* False as stated: Plumless and Buckeroo have the same signature and one is read as the other (C60_signatures_refuted); which one depends on the order of a hash map. Proved for names of equal length that differ in at most four consecutive letters. C60_who_signs says which types get a signature of their own.

### C61 Generated enums derive the common traits — partial

* modelled in: Macros (Derives, enums)
* proof: Induction over the fold of intersections.
* theorems: `C61_block_derives`, `C61_payload_derives`, `C61_twice_refuted`, `C61_derivable_refuted`
* The set of derives is proved exactly; that all of them can be derived for an enum is false: Default (C61_derivable_refuted), and traits that the macro derives anyway (C61_twice_refuted).

### C62 Undocumented attributes are refused — partial

* modelled in: Macros (attribute parsers)
* proof: Case analysis of expressions against an independent grammar.
* theorems: `C62_unknown_refuted`, `C62_unknown_ignored`, `C62_refused_partial`, `C62_settings`
* False as stated for blocks and payloads: any unknown single word is ignored, e.g. nocrc or a path of one segment (C62_unknown_refuted, C62_unknown_ignored). What is refused is described exactly; for generate! the property holds (C62_settings).

### C63 Generated code is consistent — partial

* modelled in: Macros (Collector::write)
* proof: NoDup of the collected names; membership of arms and variants.
* theorems: `C63_no_default_refuted`, `C63_no_default`, `C63_compiles_partial`, `C63_parts`
* False as stated: with no_default_payload and a payload of one's own the generated functions name the missing variants Bytes and String (C63_no_default_refuted, for all payloads C63_no_default). Proved with the default payloads and no payload called Bytes or String; C63_parts says which parts are generated.

### C64 A block is what was declared — proved

* modelled in: Macros (parsing)
* proof: Equivalence of the parser with a relational meaning of types, fields and attributes.
* theorems: `C64_block_declaration`, `C64_payload_declaration`

### C65 no_crc switches the payload checksum off — partial

* modelled in: Macros (payload codegen), Payload
* proof: Computation of the generated implementation for every attribute list.
* theorems: `C65_no_crc_refuted`, `C65_no_crc_alone`, `C65_no_crc_partial`
* False as stated: a checksum field that is not zero is refused, and without bincode no_crc has no effect (C65_no_crc_refuted, C65_no_crc_alone). The rest is proved.

### C66 A packet that cannot be encoded leaves no trace — partial

* modelled in: Payload, Packet
* proof: Computation of the write paths for failing codecs; witness.
* theorems: `C66_trace_refuted`, `C66_too_large`, `C66_length_field`, `C66_unencodable_partial`
* False as stated: write and write_all of a packet put its header and blocks into the sink before the payload is refused, and these swallow the packet written next (C66_trace_refuted). Proved: a payload alone, and slices, leave nothing; what a packet leaves is described exactly; the limit and the length field hold. The storage writer encodes into memory first, so its file is unchanged (C44_unencodable_partial).

### C67 Buffered header reads leave the source behind the header — partial

* modelled in: Packet (hdr_try_read_buf)
* proof: Reads inside the buffer; equality with the slice reader; witness.
* theorems: `C67_position_refuted`, `C67_buffered_partial`
* False as stated: 58 bytes are consumed instead of 29 (C67_position_refuted). The value, the missing bytes and what is consumed are proved.

### C68 get_pos finds the first signature — partial

* modelled in: Packet (get_pos)
* proof: Induction over the buffer; witness.
* theorems: `C68_first_refuted`, `C68_first_partial`
* False as stated: a signature in the last eight bytes is not seen (C68_first_refuted). Proved for all other places.

### C69 Rules may be changed between reads — proved

* modelled in: StreamReader, Rules
* proof: Simulation of the reader by the list of packets not yet reported, with the rules as a parameter that changes between steps.
* theorems: `C69_rules_between_reads`
* Chunks may have any length when fewer than 21 foreign bytes precede each packet; otherwise they need 29 bytes, as in C28.

### C70 Slot::try_read tells incomplete, damaged and foreign data apart — partial

* modelled in: Slot
* proof: Case analysis of the bytes ahead; witness.
* theorems: `C70_outcomes_partial`, `C70_incomplete_refuted`, `C70_read_outcomes`
* False: for an incomplete slot the number of missing bytes is computed as PacketHeader::ssize() - needed, which underflows (panic in debug builds, a huge number in release builds) as soon as the slot has room for two packets; see C70_incomplete_refuted and finding 36. Everything else holds (C70_outcomes_partial).

### C71 An empty slot at the end of a storage is harmless — proved

* modelled in: Storage
* proof: The locator lemmas of C33-C36 for a slot table followed by an empty one.
* theorems: `C71_empty_slot_read`, `C71_empty_slot_filled`

### C72 len, is_empty and buffer_len agree with fill_buf — proved

* modelled in: BufReader
* proof: Case analysis of the source.
* theorems: `C72_lengths`

### C73 Every checksum is the standard CRC-32 — proved

* modelled in: Crc32, Packet, Block, Payload, Slot
* proof: The register of the bitwise algorithm is the remainder of the bits seen so far (induction over the bits); uniqueness of the remainder by degrees. Products and remainders of polynomials are defined on their own (`SpecCrc.v`).
* theorems: `C73_checksum`, `C73_header`, `C73_block`, `C73_payload`, `C73_slot`

### C74 Buffered try_read of an incomplete packet loses nothing — partial

* modelled in: Packet
* proof: Case analysis of the prefix; witness; for pieces an invariant: what the source shows at each place is what it showed at the start.
* theorems: `C74_consumed_refuted`, `C74_incomplete_partial`, `C74_pieces`
* False: the comparison of the available bytes with the size in the header forgets the 29 bytes of the header itself; when less than that is missing, header and blocks are consumed before the payload is found incomplete, and the packet is lost (C74_consumed_refuted, finding 38). It holds when more than 29 bytes are missing, for all sources (C74_incomplete_partial). C74_pieces gives the outcome and the place of the source for every division of the packet into pieces, for sources without faults.

### C75 Opening any file as a storage — partial

* modelled in: Storage, Slot
* proof: Induction over the tables with the total description of Slot::try_read; existence from the same description.
* theorems: `C75_open_refuted`, `C75_open_partial`
* Refuted as stated: a table that announces more bytes than the file holds and an incomplete table for two packets or more make opening panic. The partial theorem gives the outcome for every file, panics included.

### C76 nth on any opened storage — partial

* modelled in: Storage, Slot
* proof: Case analysis; place in the file from the sum of the tables before.
* theorems: `C76_nth_refuted`, `C76_nth_partial`
* Refuted as stated: a table with an unused entry before used ones makes nth panic. The partial theorem gives the outcome of nth for every file, panics included, and excludes panics when no table has such a hole.

### C77 Iterating over any opened storage ends — proved

* modelled in: Storage, Packet, Rules
* proof: Every read takes a byte and never goes back, hence sequences of reads end; induction over the tables; independence of the number of rounds.
* theorems: `C77_iterate`

### C78 Seeking in any opened storage — partial

* modelled in: Storage, Slot
* proof: Induction over the tables; then as C77.
* theorems: `C78_seek_refuted`, `C78_seek_partial`
* Refuted as stated (tables with holes lead to panics). C78_seek_partial describes every outcome of seek, the overflow panics of tables with holes included; without holes there are none.

### C79 A declared crate's packets round trip — proved

* modelled in: Macros, Block, Payload, Packet
* proof: Declarations are shown to give legal schemas and kinds; then the packet round trip.
* theorems: `C79_declared_round_trip`

### C80 What unreadable bytes of a text become — proved

* modelled in: Payload
* proof: UTF-8 is defined by encoding characters; the decoder's step is shown to give the longest beginning of a character.
* theorems: `C80_text_reading`

### C81 Ranges of a storage of unknown origin — proved

* modelled in: Storage
* proof: Failed reads move only the position of the file, which the next `nth` sets anyway.
* theorems: `C81_ranges`

### C82 Inserting into a storage of unknown origin — partial

* modelled in: Storage
* proof: The bytes after the insert are computed from the tables found when opening.
* theorems: `C82_insert_refuted`, `C82_insert_partial`, `C82_kept_partial`
* Refuted as stated: when a table that is not the last has room, the packet overwrites the next table; when a table has a hole, the entry is put into the hole and the following entries count. C82_insert_partial gives the exact bytes of the file after the first insert into any file that was opened; C82_kept_partial proves the claim for tables of any size without holes of which only the last has room.

### C83 Reading a storage whose file was changed behind the reader — partial

* modelled in: Storage
* proof: An iterator over the tables whose regions are in the file is followed by the rest of the tables; the first region that is missing panics.
* theorems: `C83_changed_refuted`, `C83_known_partial`, `C83_changed_partial`, `C83_longer_partial`
* Refuted as stated: when the file is cut, nth panics on a subtraction, the iterators and seek on an unwrap. C83_known_partial says which tables a reader knows; C83_changed_partial gives every result of nth, the iterators and seek for any later content of the file; C83_longer_partial proves the claim when the file is at least as long as the tables announce and they have no holes.

### C84 Reloading a storage whose file was changed in any way — partial

* modelled in: Storage
* proof: The loop of reload is followed table by table; what ends it is read off the bytes where the tables end.
* theorems: `C84_reload_refuted`, `C84_reload_partial`, `C84_replaced_partial`, `C84_count_partial`
* Refuted as stated: changes before the last table go unnoticed, a table added behind a filled one replaces it, a shorter file makes it panic. C84_reload_partial (last table without room) and C84_replaced_partial (last table with room) describe the outcome, the tables known afterwards and the number returned for any content of the file; C84_count_partial gives count.

### C85 What one call of the sensor does — proved

* modelled in: Sensor
* proof: A description of the state at each step of the call is kept from step to step.
* theorems: `C85_processed`, `C85_event`, `C85_errors`

### C86 Packet headers on their own — proved

* modelled in: Packet
* proof: Case analysis of the reads.
* theorems: `C86_header_round_trip`, `C86_header_truncated`

### C87 What the streaming reader makes of any packet with a readable header — proved

* modelled in: StreamReader
* proof: The outcome of the second half of read is computed from a description of the bytes, block by block; the description is shown to be total.
* theorems: `C87_determined`, `C87_whole`, `C87_pieces`, `C87_stream`
* SpecJudge.v says the judgement on the bytes alone; the packet stays in the buffer, so that the same report comes for ever, exactly in the cases Leave and ClearOnly of that definition. What an error says is left open except for too many blocks. Headers with a flag byte other than 0 and 1 are left out. In C87_stream the chunks may have any length when fewer than 21 foreign bytes precede each packet; otherwise they need 29 bytes, as in C28.

### C88 The numbers reported while waiting — proved

* modelled in: StreamReader
* proof: Invariant of the reader plus a case analysis of what each state has stored.
* theorems: `C88_waiting`
* In streams without foreign bytes, of packets that are dropped with their report.

### C89 A file storage shared by several processes — proved

* modelled in: Shared, Locker, Storage, File
* proof: invariant of the joint transition system of locks, files and writers (SharedProofs), on top of mutual exclusion (C46), reopening (C41) and crash points (C42, C43)
* theorems: `C89_shared_storage`, `C89_no_deaths`, `C89_removed_lock_file`
* The inserts of one process are single steps of the interleaving, except that a process may die at any byte of one. That a death can leave a file nobody can open is C42. C89_removed_lock_file shows that the assumption about the lock file is needed: an acknowledged packet is lost.

### C90 A reader that reloads while a writer inserts — partial

* modelled in: Storage, Slot, File
* proof: what a half-written table can be taken for (old, new or damaged), then an invariant over the sequence of reloads (PollProofs)
* theorems: `C90_moments`, `C90_moments_occur`, `C90_poll_partial`, `C90_calm`, `C90_boundary`, `C90_always_refuted`
* Refuted as stated (C90_always_refuted): a reload panics on a subtraction while the first packet of a slot is being written (from the 16th byte of its table on) and while the last packet of a slot is incomplete behind its table (C90_boundary). C90_poll_partial is the claim for every sequence of calls none of which panics; C90_calm says that calls at all other moments do not panic, except within the four checksum bytes of a table that becomes full, where it depends on the bytes. C90_moments and C90_moments_occur say that the moments considered are exactly the states of the file that an insert goes through.

### C91 Opening storages in a release build — partial

* modelled in: Release, Slot, Storage
* proof: wrapping arithmetic coincides with the checked one as long as the latter does not panic; the other cases are computed: a position behind the end of the file leaves 2^64 bytes minus some, then the read fails (ReleaseProofs)
* theorems: `C91_same`, `C91_open_partial`, `C91_ends_refuted`, `C91_crash_partial`, `C91_leftover`, `C91_torn`
* Refuted as stated (C91_ends_refuted): a file of 28 bytes for which opening never ends. C91_open_partial gives the outcome for every file whose tables announce less than 2^64 bytes; a table of 2^61 entries and more still panics in the allocation. C91_same, C91_crash_partial, C91_leftover and C91_torn are about the rest of the claim; after some interruptions the storage cannot be opened (C91_torn), which is an error here and a panic in a debug build (C42).

### C92 Reloading in a release build — partial

* modelled in: Release, Slot, Storage
* proof: the sequence of reloads of C90 with the moments that panic there replaced by what happens without checks; a further state of the reader, which knows the slot but has not announced it (ReleaseReloadProofs)
* theorems: `C92_same`, `C92_poll_partial`, `C92_boundary`, `C92_announced_refuted`
* Refuted as stated (C92_announced_refuted): between the table and the packet of an insert that begins or fills a slot a call gives UnexpectedEof and the packet is never announced afterwards (C92_boundary). Everything else of the claim is C92_poll_partial, for all sequences of moments; C92_same compares the builds for any content of the file.

### C93 The streaming reader in a release build — partial

* modelled in: ReleaseStream, StreamReader
* proof: the reader's invariant of C32 and C22 with, in addition, pieces of the stream left out behind headers (ReleaseStreamProofs); for mixed streams the invariant of C28 up to the call that panics with checks, then the continuation as the reading of another stream (ReleaseDropProofs)
* theorems: `C93_same`, `C93_no_panic_partial`, `C93_panic_refuted`, `C93_found`, `C93_invented_refuted`, `C93_lost_refuted`, `C93_any_chunks`
* Refuted in three points: a header that announces nearly 2^64 bytes panics here too (C93_panic_refuted); when a read is shorter than a header, packets are lost without any error (C93_lost_refuted), and a packet is returned that nobody sent, the header of one and the blocks of another (C93_invented_refuted). C93_same compares the builds for any input; C93_no_panic_partial excludes panics for every input whose headers do not lie; C93_found says what a found packet always is; C93_any_chunks says for every stream and every cutting what is reported and, if something goes wrong, which read is thrown away and how the reader goes on.

### C94 Reading single packets and seeking in a release build — partial

* modelled in: ReleaseRead, Release, Storage
* proof: sums modulo 2^64 (ReleaseReadProofs) on top of the descriptions for builds with checks (HostileProofs, ChangedProofs)
* theorems: `C94_nth`, `C94_nth_filtered`, `C94_same`, `C94_beyond_refuted`, `C94_seek_refuted`
* Refuted in two points: a table whose lengths add up to more than 2^64 is accepted, and an entry that lies beyond the end of the file gives a packet from its beginning (C94_beyond_refuted); seeking behind a hole panics here too, with a capacity overflow, and so does seeking in a file that was cut (C94_seek_refuted). C94_nth and C94_nth_filtered give every outcome for any tables and any file, and exclude panics but for that of a header with a huge size in nth_filtered (C22); C94_same compares the builds.

### C95 Iterating and ranges in a release build — partial

* modelled in: ReleaseIter, ReleaseRead, Storage
* proof: the sums over the tables to come stay below 2^64 (ReleaseIterProofs), then C77; ranges as in C81 on top of C94
* theorems: `C95_same`, `C95_iterate_partial`, `C95_ranges`, `C95_missed_refuted`, `C95_panic_refuted`, `C95_any`, `C95_any_filtered`
* Refuted for tables that announce 2^64 bytes and more, which opening accepts: a table whose lengths add up to 2^64 ends the iteration although nth finds the packets behind it (C95_missed_refuted), and tables that lead back make the iterator ask for nearly 2^64 bytes and panic (C95_panic_refuted). C95_same compares the builds call by call below that bound, also after seeking and when the file was changed; C95_iterate_partial gives all results for opened files and excludes panics but for those of headers with a huge size (C22); C95_any and C95_any_filtered say for all tables and any content of the file what the iterators give and with which panic they end. C95_ranges needs no bound.

### C96 Inserting in a release build — partial

* modelled in: ReleaseWrite, Release, Storage
* proof: the place of the writer and the tables to come add up to less than 2^64 (ReleaseWriteProofs), then the invariant of C33
* theorems: `C96_insert`, `C96_opened`, `C96_history`, `C96_overwrites_refuted`
* Refuted for files that only a release build opens: lengths that add up to more than 2^64 make the free entry begin inside an earlier packet, and an insert that reports success overwrites it (C96_overwrites_refuted). For files that open with overflow checks C96_opened gives the first insert under any faults, C96_insert every insert while the sums stay below 2^64, C96_history whole histories of storages below 2^63 bytes. What later inserts into foreign tables with holes do once the sums exceed 2^64 is not described.

