{
 "claims": [
  {
   "property": "C01",
   "status": "proved",
   "theorems": [
    "C01_read_round_trip",
    "C01_sources_lawful",
    "C01_texts_and_bytes"
   ],
   "note": ""
  },
  {
   "property": "C02",
   "status": "proved",
   "theorems": [
    "C02_try_read_round_trip"
   ],
   "note": ""
  },
  {
   "property": "C03",
   "status": "proved",
   "theorems": [
    "C03_buffered_round_trip"
   ],
   "note": ""
  },
  {
   "property": "C04",
   "status": "proved",
   "theorems": [
    "C04_length_law",
    "C04_layout"
   ],
   "note": ""
  },
  {
   "property": "C05",
   "status": "proved",
   "theorems": [
    "C05_packet_write_paths",
    "C05_block_write_paths",
    "C05_payload_write_paths"
   ],
   "note": ""
  },
  {
   "property": "C06",
   "status": "proved",
   "theorems": [
    "C06_vectored_write",
    "C06_vectored_write_succeeds",
    "C06_collected",
    "C06_packet_vectored"
   ],
   "note": ""
  },
  {
   "property": "C07",
   "status": "proved",
   "theorems": [
    "C07_write_prefix",
    "C07_write_all_prefix",
    "C07_faults_reported"
   ],
   "note": ""
  },
  {
   "property": "C08",
   "status": "proved",
   "theorems": [
    "C08_block_round_trip"
   ],
   "note": ""
  },
  {
   "property": "C09",
   "status": "proved",
   "theorems": [
    "C09_block_corruption"
   ],
   "note": ""
  },
  {
   "property": "C10",
   "status": "proved",
   "theorems": [
    "C10_header_corruption",
    "C10_signature_change"
   ],
   "note": ""
  },
  {
   "property": "C11",
   "status": "proved",
   "theorems": [
    "C11_raw_payload_corruption"
   ],
   "note": ""
  },
  {
   "property": "C12",
   "status": "proved",
   "theorems": [
    "C12_truncated_block"
   ],
   "note": ""
  },
  {
   "property": "C13",
   "status": "partial",
   "theorems": [
    "C13_position_refuted",
    "C13_position_partial"
   ],
   "note": "False as stated: on a truncated body the position is left after the signature (C13_position_refuted). Proved: exact positions for all truncated or mismatching inputs."
  },
  {
   "property": "C14",
   "status": "proved",
   "theorems": [
    "C14_block_dispatch_order",
    "C14_block_dispatch_finds"
   ],
   "note": ""
  },
  {
   "property": "C15",
   "status": "partial",
   "theorems": [
    "C15_stream_dispatch_refuted",
    "C15_stream_dispatch_partial",
    "C15_types_in_turn",
    "C15_later_type"
   ],
   "note": "False as stated: the stream dispatch only reads blocks of the type tried first (refuted). Proved for the first type; C15_types_in_turn and C15_later_type say for every source what happens for the others (each type asked in vain swallows four bytes)."
  },
  {
   "property": "C16",
   "status": "partial",
   "theorems": [
    "C16_skip_signature_refuted",
    "C16_never_accepted",
    "C16_skip_signature_partial"
   ],
   "note": "False for every block: read_from_slice(skip_sig = true) counts the signature in its offsets (C16_never_accepted). Proved: works when four bytes precede the fields."
  },
  {
   "property": "C17",
   "status": "proved",
   "theorems": [
    "C17_payload_header_round_trip",
    "C17_bad_lengths_rejected"
   ],
   "note": ""
  },
  {
   "property": "C18",
   "status": "proved",
   "theorems": [
    "C18_payload_header_all_or_nothing"
   ],
   "note": ""
  },
  {
   "property": "C19",
   "status": "partial",
   "theorems": [
    "C19_stream_limit_refuted",
    "C19_stream_stuck",
    "C19_stream_pieces",
    "C19_block_limit_refuted",
    "C19_block_limit_partial"
   ],
   "note": "False as stated: 257 blocks are written and accepted by filtered but rejected by read and try_read; 256 blocks are read by read but refused by the streaming reader. Complete description proved: read and both try_reads take every packet of up to 256 blocks and refuse every longer one with the blocks limit, filtered takes any number (C19_block_limit_partial); the streaming reader takes up to 255 and, for more, gives the same error for ever when the packet came whole and gives it once and goes on after the packet when it came in pieces (C19_stream_stuck, C19_stream_pieces)."
  },
  {
   "property": "C20",
   "status": "partial",
   "theorems": [
    "C20_try_read_refuted",
    "C20_error_refuted",
    "C20_try_read_partial"
   ],
   "note": "False as stated: between 29 bytes and size bytes the position is moved by 29; a truncated payload header is an error. Proved: complete description of the outcome for every strict prefix."
  },
  {
   "property": "C21",
   "status": "partial",
   "theorems": [
    "C21_long_streaming",
    "C21_checksum_length_refuted",
    "C21_size_field",
    "C21_checksum_length_partial",
    "C21_long_checksum"
   ],
   "note": "False for checksums longer than four bytes; the reason is C21_size_field. Proved for four bytes. C21_long_checksum and C21_long_streaming give the outcome for every longer one: read and filtered fail and leave the end of the packet in the source, both try_read return the packet, the streaming reader reports one error or the same error for ever."
  },
  {
   "property": "C22",
   "status": "partial",
   "theorems": [
    "C22_stream_only_underflow",
    "C22_stream_panic_refuted",
    "C22_stream_no_panic_partial",
    "C22_no_panic_refuted",
    "C22_no_panic_partial"
   ],
   "note": "False: a 29 byte header announcing 2^63 bytes panics read and filtered; a header with blocks longer than the packet or an overflowing size panics the streaming reader. Proved: try_read never panics, this is the only way for read and filtered, and the streaming reader never panics on streams without such headers when no system read is shorter than 29 bytes. With shorter reads the subtraction behind a refill is the only thing that panics on such streams (C22_stream_only_underflow)."
  },
  {
   "property": "C23",
   "status": "proved",
   "theorems": [
    "C23_one_rule_per_kind"
   ],
   "note": ""
  },
  {
   "property": "C24",
   "status": "proved",
   "theorems": [
    "C24_filter_verdicts"
   ],
   "note": ""
  },
  {
   "property": "C25",
   "status": "proved",
   "theorems": [
    "C25_filtered_read",
    "C25_denied_without_payload"
   ],
   "note": ""
  },
  {
   "property": "C26",
   "status": "proved",
   "theorems": [
    "C26_pure_stream"
   ],
   "note": ""
  },
  {
   "property": "C27",
   "status": "proved",
   "theorems": [
    "C27_filtered_stream"
   ],
   "note": ""
  },
  {
   "property": "C28",
   "status": "partial",
   "theorems": [
    "C28_underflow_refuted",
    "C28_lost_packet_refuted",
    "C28_mixed_stream_partial",
    "C28_any_chunks"
   ],
   "note": "False as stated: when some chunks are shorter than 29 bytes and 21 or more foreign bytes precede a packet, the reader can panic (C28_underflow_refuted) or lose the last packet (C28_lost_packet_refuted). Proved for all chunkings when fewer than 21 foreign bytes precede each packet, and for chunks of at least 29 bytes otherwise (C28_mixed_stream_partial); C28_any_chunks gives every outcome for all chunkings."
  },
  {
   "property": "C29",
   "status": "proved",
   "theorems": [
    "C29_no_invented_packets"
   ],
   "note": ""
  },
  {
   "property": "C30",
   "status": "partial",
   "theorems": [
    "C30_termination_refuted",
    "C30_termination_partial"
   ],
   "note": "False as stated: a truncated packet at the end gives NotEnoughData for ever. Proved: in at most three calls per byte the loop ends or reaches exactly this waiting state."
  },
  {
   "property": "C31",
   "status": "partial",
   "theorems": [
    "C31_transient_error_refuted",
    "C31_complete_packet_refuted",
    "C31_after_error",
    "C31_transient_error_partial"
   ],
   "note": "False as stated: an error inside a packet loses it, and so does an error right after a complete packet without blocks and payload whose header came in pieces. Proved for errors at every other place of a stream of packets, in any chunking: all packets before the error are reported, the error is reported once, and afterwards (C31_after_error: from any state) the reader does what a new one would do with the rest."
  },
  {
   "property": "C32",
   "status": "partial",
   "theorems": [
    "C32_header_damage_refuted",
    "C32_payload_damage_refuted",
    "C32_header_stuck",
    "C32_header_pieces",
    "C32_payload_stuck",
    "C32_payload_pieces",
    "C32_block_damage_partial"
   ],
   "note": "False as stated: damage in a packet header or payload that arrived in one chunk gives the same error for ever. Proved: damage in checksummed blocks costs at most the damaged packets, under any chunking; for headers and payloads both fates are described for every packet and every following input: whole in a chunk, the same report for ever (C32_header_stuck, C32_payload_stuck); arriving in pieces, one report and the stream goes on (C32_header_pieces, C32_payload_pieces). All other damage behind a readable header, such as an unreadable payload header, is covered by C87."
  },
  {
   "property": "C33",
   "status": "proved",
   "theorems": [
    "C33_layout",
    "C33_reader_in_use",
    "C33_append_only_list"
   ],
   "note": ""
  },
  {
   "property": "C34",
   "status": "proved",
   "theorems": [
    "C34_reopening_changes_nothing"
   ],
   "note": ""
  },
  {
   "property": "C35",
   "status": "proved",
   "theorems": [
    "C35_nth_is_indexing"
   ],
   "note": ""
  },
  {
   "property": "C36",
   "status": "proved",
   "theorems": [
    "C36_range_is_slicing"
   ],
   "note": ""
  },
  {
   "property": "C37",
   "status": "partial",
   "theorems": [
    "C37_seek_out_of_bounds",
    "C37_seek_partial",
    "C37_behind_the_slot",
    "C37_seek_refuted"
   ],
   "note": "False as stated: after seek the iterator stands at the start of the sought slot, so behind that slot it gives the first packet of the sought slot again or errors (C37_behind_the_slot, for all storages; C37_seek_refuted). Proved: out-of-bounds errors; the packets up to the end of the sought slot; the whole claim when the packet is in the last slot."
  },
  {
   "property": "C38",
   "status": "proved",
   "theorems": [
    "C38_filtered_iteration",
    "C38_range_filtered"
   ],
   "note": ""
  },
  {
   "property": "C39",
   "status": "partial",
   "theorems": [
    "C39_reload_partial",
    "C39_reload_each_packet_partial",
    "C39_crossing_loses",
    "C39_two_slots_refuted",
    "C39_full_slot_refuted",
    "C39_checksum_blind",
    "C39_checksum_refuted"
   ],
   "note": "False as stated: (a) new packets that cross a slot boundary are always missed in part (C39_crossing_loses, for all storages), (b) the number reported is 500 short when the new last slot is full, (c) table checksums can collide (C39_checksum_blind, packets of 324, 81, 77, 247 bytes). Proved for all other cases, in particular for reloading after each packet."
  },
  {
   "property": "C40",
   "status": "partial",
   "theorems": [
    "C40_slot_round_trip",
    "C40_slot_writes",
    "C40_table_corruption_partial",
    "C40_signature_change",
    "C40_capacity_refuted"
   ],
   "note": "False as stated: one changed byte of the capacity moves the place where the checksum is looked for, and a different slot can be accepted. Proved: round trip; corruption of lengths or checksum is always detected; a changed signature is always reported."
  },
  {
   "property": "C41",
   "status": "proved",
   "theorems": [
    "C41_slot_bookkeeping"
   ],
   "note": ""
  },
  {
   "property": "C42",
   "status": "partial",
   "theorems": [
    "C42_crash_partial",
    "C42_leftover_harmless",
    "C42_between_the_writes",
    "C42_crash_refuted"
   ],
   "note": "False as stated: a crash between the two writes of insert makes every later open panic (debug build), a partly overwritten table gives DamagedSlot (C42_between_the_writes for all storages, C42_crash_refuted). Proved: every crash point leaves the storage as before (up to 15 harmless bytes), complete, or impossible to open - never wrong content; the packets themselves stay recoverable (C45_recovery_after_crash)."
  },
  {
   "property": "C43",
   "status": "proved",
   "theorems": [
    "C43_packets_stay"
   ],
   "note": ""
  },
  {
   "property": "C44",
   "status": "partial",
   "theorems": [
    "C44_unencodable_partial",
    "C44_failed_flush",
    "C44_failure_refuted",
    "C44_recovery",
    "C44_slot_end",
    "C44_slot_end_refuted"
   ],
   "note": "False as stated: after a failed write the slot in memory already counts the packet, so the next insert leaves a hole and the count is too large (C44_failure_refuted); when the insert fails that was to fill a slot, the next one makes the file unreadable (C44_slot_end, C44_slot_end_refuted). Proved: packets that cannot be encoded change nothing; a failing first flush leaves the file unchanged; after any failures at other places, whatever the answers of the system, the next successful insert leaves a file that readers open, with every stored packet in its place and the rest of the failed ones in theirs (C44_recovery)."
  },
  {
   "property": "C45",
   "status": "proved",
   "theorems": [
    "C45_recovery",
    "C45_tables",
    "C45_recovery_after_crash",
    "C45_condition_needed"
   ],
   "note": "Under the stated condition on the tables; C45_condition_needed shows that it is needed, C45_tables that for packets below 4 GiB it only concerns the table checksum."
  },
  {
   "property": "C46",
   "status": "proved",
   "theorems": [
    "C46_mutual_exclusion",
    "C46_lock_is_given_back",
    "C46_taken",
    "C46_system_errors",
    "C46_removed_lock_file"
   ],
   "note": "C46_removed_lock_file shows that the assumption about the lock file is needed."
  },
  {
   "property": "C47",
   "status": "proved",
   "theorems": [
    "C47_no_timeout",
    "C47_first_free_round",
    "C47_timeout",
    "C47_one_interval",
    "C47_ends",
    "C47_new",
    "C47_options"
   ],
   "note": ""
  },
  {
   "property": "C48",
   "status": "partial",
   "theorems": [
    "C48_distinct_refuted",
    "C48_distinct_partial",
    "C48_shared",
    "C48_both_open",
    "C48_own_lock"
   ],
   "note": "False as stated: the lock file replaces the extension, so data.a and data.b share data.lock (C48_distinct_refuted, C48_shared: exactly then); a storage x.lock is its own lock file. Proved for names with equal extensions; storages with different lock files never hinder each other."
  },
  {
   "property": "C49",
   "status": "partial",
   "theorems": [
    "C49_old_content_refuted",
    "C49_no_wake_lost_partial",
    "C49_failures_matter"
   ],
   "note": "False as stated: content the file has when the sensor is created is not announced until something happens (C49_old_content_refuted). Proved from the first change, event or acknowledgement on, if no event or metadata call fails (C49_failures_matter: needed)."
  },
  {
   "property": "C50",
   "status": "proved",
   "theorems": [
    "C50_monotone",
    "C50_largest",
    "C50_wakes"
   ],
   "note": ""
  },
  {
   "property": "C51",
   "status": "partial",
   "theorems": [
    "C51_refill_refuted",
    "C51_consumed_refuted",
    "C51_read_error_refuted",
    "C51_buffered_reader_partial",
    "C51_each_call"
   ],
   "note": "False as stated: refill called as documented overwrites preloaded bytes; consumed() leaves out the preload when consume crosses its end; a failing read drops the preload. Proved for all other call sequences, chunkings and errors; and for every legal call after every sequence of calls, with exactly which bytes are lost or left uncounted (C51_each_call)."
  },
  {
   "property": "C52",
   "status": "proved",
   "theorems": [
    "C52_payload_dispatch_order",
    "C52_payload_dispatch_finds",
    "C52_no_match_consumes_nothing"
   ],
   "note": ""
  },
  {
   "property": "C53",
   "status": "partial",
   "theorems": [
    "C53_signatures_refuted",
    "C53_path_has_no_effect",
    "C53_names_refuted",
    "C53_signature_partial"
   ],
   "note": "False: the path is not part of the signature (C53_path_has_no_effect, for all definitions), and different names can share a signature (C53_names_refuted: Plumless and Buckeroo). What holds: the signature is the CRC-32 of a text that determines name and fields, and texts of the same length differing within four bytes never collide (C53_signature_partial)."
  },
  {
   "property": "C54",
   "status": "not_applicable",
   "theorems": [],
   "note": "The hooks are declared (brec/src/payload/mod.rs:16-30) but no code calls them: there is nothing to model; recorded as a finding in DESIGN.md."
  },
  {
   "property": "C55",
   "status": "partial",
   "theorems": [
    "C55_canonical_refuted",
    "C55_block_refuted",
    "C55_canonical_partial",
    "C55_slack_refuted",
    "C55_block_exact",
    "C55_packet_exact"
   ],
   "note": "False: flag bytes other than 1, bool bytes other than 0 and 1, and bytes behind the contents are accepted. Proved for the header up to its flag byte and for blocks without bool fields; C55_block_exact and C55_packet_exact give the accepted bytes exactly, in both directions."
  },
  {
   "property": "C56",
   "status": "partial",
   "theorems": [
    "C56_wake_length",
    "C56_news_refuted"
   ],
   "note": "False as stated: a wake can arrive for data already acknowledged (C56_news_refuted). Proved: the size is a length the file had."
  },
  {
   "property": "C57",
   "status": "partial",
   "theorems": [
    "C57_crc_name_refuted",
    "C57_crc_name",
    "C57_names_partial"
   ],
   "note": "False as stated: a field named crc of type [u8; 4] is replaced by the checksum while reading, so such a block reads as zeros (no checksum) or is refused (C57_crc_name, complete description; C57_crc_name_refuted). Proved for all other names."
  },
  {
   "property": "C58",
   "status": "partial",
   "theorems": [
    "C58_string_refuted",
    "C58_accepted_partial",
    "C58_corruption_partial",
    "C58_text_partial"
   ],
   "note": "False as stated: a String is compared after invalid bytes were replaced, so a packet with the text jkaicode whose last byte was changed to 255 is read without error as a different text (C58_string_refuted). Proved: what is accepted always has an encoding with the original checksum; the change is noticed when the damaged bytes are not another spelling of some value, in particular for texts that are still UTF-8."
  },
  {
   "property": "C59",
   "status": "partial",
   "theorems": [
    "C59_dropped_refuted",
    "C59_first_wins",
    "C59_declared_partial",
    "C59_payloads_partial",
    "C59_same_path_partial"
   ],
   "note": "False as stated: a::b::Cd and a::BCd get the same variant name, and the second one declared is silently dropped (C59_dropped_refuted). C59_first_wins describes completely what takes part; with different variant names everything does."
  },
  {
   "property": "C60",
   "status": "partial",
   "theorems": [
    "C60_signatures_refuted",
    "C60_signatures_partial",
    "C60_who_signs"
   ],
   "note": "False as stated: Plumless and Buckeroo have the same signature and one is read as the other (C60_signatures_refuted); which one depends on the order of a hash map. Proved for names of equal length that differ in at most four consecutive letters. C60_who_signs says which types get a signature of their own."
  },
  {
   "property": "C61",
   "status": "partial",
   "theorems": [
    "C61_block_derives",
    "C61_payload_derives",
    "C61_twice_refuted",
    "C61_derivable_refuted"
   ],
   "note": "The set of derives is proved exactly; that all of them can be derived for an enum is false: Default (C61_derivable_refuted), and traits that the macro derives anyway (C61_twice_refuted)."
  },
  {
   "property": "C62",
   "status": "partial",
   "theorems": [
    "C62_unknown_refuted",
    "C62_unknown_ignored",
    "C62_refused_partial",
    "C62_settings"
   ],
   "note": "False as stated for blocks and payloads: any unknown single word is ignored, e.g. nocrc or a path of one segment (C62_unknown_refuted, C62_unknown_ignored). What is refused is described exactly; for generate! the property holds (C62_settings)."
  },
  {
   "property": "C63",
   "status": "partial",
   "theorems": [
    "C63_no_default_refuted",
    "C63_no_default",
    "C63_compiles_partial",
    "C63_parts"
   ],
   "note": "False as stated: with no_default_payload and a payload of one's own the generated functions name the missing variants Bytes and String (C63_no_default_refuted, for all payloads C63_no_default). Proved with the default payloads and no payload called Bytes or String; C63_parts says which parts are generated."
  },
  {
   "property": "C64",
   "status": "proved",
   "theorems": [
    "C64_block_declaration",
    "C64_payload_declaration"
   ],
   "note": ""
  },
  {
   "property": "C65",
   "status": "partial",
   "theorems": [
    "C65_no_crc_refuted",
    "C65_no_crc_alone",
    "C65_no_crc_partial"
   ],
   "note": "False as stated: a checksum field that is not zero is refused, and without bincode no_crc has no effect (C65_no_crc_refuted, C65_no_crc_alone). The rest is proved."
  },
  {
   "property": "C66",
   "status": "partial",
   "theorems": [
    "C66_trace_refuted",
    "C66_too_large",
    "C66_length_field",
    "C66_unencodable_partial"
   ],
   "note": "False as stated: write and write_all of a packet put its header and blocks into the sink before the payload is refused, and these swallow the packet written next (C66_trace_refuted). Proved: a payload alone, and slices, leave nothing; what a packet leaves is described exactly; the limit and the length field hold. The storage writer encodes into memory first, so its file is unchanged (C44_unencodable_partial)."
  },
  {
   "property": "C67",
   "status": "partial",
   "theorems": [
    "C67_position_refuted",
    "C67_buffered_partial"
   ],
   "note": "False as stated: 58 bytes are consumed instead of 29 (C67_position_refuted). The value, the missing bytes and what is consumed are proved."
  },
  {
   "property": "C68",
   "status": "partial",
   "theorems": [
    "C68_first_refuted",
    "C68_first_partial"
   ],
   "note": "False as stated: a signature in the last eight bytes is not seen (C68_first_refuted). Proved for all other places."
  },
  {
   "property": "C69",
   "status": "proved",
   "theorems": [
    "C69_rules_between_reads"
   ],
   "note": "Chunks may have any length when fewer than 21 foreign bytes precede each packet; otherwise they need 29 bytes, as in C28."
  },
  {
   "property": "C70",
   "status": "partial",
   "theorems": [
    "C70_outcomes_partial",
    "C70_incomplete_refuted",
    "C70_read_outcomes"
   ],
   "note": "False: for an incomplete slot the number of missing bytes is computed as PacketHeader::ssize() - needed, which underflows (panic in debug builds, a huge number in release builds) as soon as the slot has room for two packets; see C70_incomplete_refuted and finding 36. Everything else holds (C70_outcomes_partial)."
  },
  {
   "property": "C71",
   "status": "proved",
   "theorems": [
    "C71_empty_slot_read",
    "C71_empty_slot_filled"
   ],
   "note": ""
  },
  {
   "property": "C72",
   "status": "proved",
   "theorems": [
    "C72_lengths"
   ],
   "note": ""
  },
  {
   "property": "C73",
   "status": "proved",
   "theorems": [
    "C73_checksum",
    "C73_header",
    "C73_block",
    "C73_payload",
    "C73_slot"
   ],
   "note": ""
  },
  {
   "property": "C74",
   "status": "partial",
   "theorems": [
    "C74_consumed_refuted",
    "C74_incomplete_partial",
    "C74_pieces"
   ],
   "note": "False: the comparison of the available bytes with the size in the header forgets the 29 bytes of the header itself; when less than that is missing, header and blocks are consumed before the payload is found incomplete, and the packet is lost (C74_consumed_refuted, finding 38). It holds when more than 29 bytes are missing, for all sources (C74_incomplete_partial). C74_pieces gives the outcome and the place of the source for every division of the packet into pieces, for sources without faults."
  },
  {
   "property": "C75",
   "status": "partial",
   "theorems": [
    "C75_open_refuted",
    "C75_open_partial"
   ],
   "note": "Refuted as stated: a table that announces more bytes than the file holds and an incomplete table for two packets or more make opening panic. The partial theorem gives the outcome for every file, panics included."
  },
  {
   "property": "C76",
   "status": "partial",
   "theorems": [
    "C76_nth_refuted",
    "C76_nth_partial"
   ],
   "note": "Refuted as stated: a table with an unused entry before used ones makes nth panic. The partial theorem gives the outcome of nth for every file, panics included, and excludes panics when no table has such a hole."
  },
  {
   "property": "C77",
   "status": "proved",
   "theorems": [
    "C77_iterate"
   ],
   "note": ""
  },
  {
   "property": "C78",
   "status": "partial",
   "theorems": [
    "C78_seek_refuted",
    "C78_seek_partial"
   ],
   "note": "Refuted as stated (tables with holes lead to panics). C78_seek_partial describes every outcome of seek, the overflow panics of tables with holes included; without holes there are none."
  },
  {
   "property": "C79",
   "status": "proved",
   "theorems": [
    "C79_declared_round_trip"
   ],
   "note": ""
  },
  {
   "property": "C80",
   "status": "proved",
   "theorems": [
    "C80_text_reading"
   ],
   "note": ""
  },
  {
   "property": "C81",
   "status": "proved",
   "theorems": [
    "C81_ranges"
   ],
   "note": ""
  },
  {
   "property": "C82",
   "status": "partial",
   "theorems": [
    "C82_insert_refuted",
    "C82_insert_partial",
    "C82_kept_partial"
   ],
   "note": "Refuted as stated: when a table that is not the last has room, the packet overwrites the next table; when a table has a hole, the entry is put into the hole and the following entries count. C82_insert_partial gives the exact bytes of the file after the first insert into any file that was opened; C82_kept_partial proves the claim for tables of any size without holes of which only the last has room."
  },
  {
   "property": "C83",
   "status": "partial",
   "theorems": [
    "C83_changed_refuted",
    "C83_known_partial",
    "C83_changed_partial",
    "C83_longer_partial"
   ],
   "note": "Refuted as stated: when the file is cut, nth panics on a subtraction, the iterators and seek on an unwrap. C83_known_partial says which tables a reader knows; C83_changed_partial gives every result of nth, the iterators and seek for any later content of the file; C83_longer_partial proves the claim when the file is at least as long as the tables announce and they have no holes."
  },
  {
   "property": "C84",
   "status": "partial",
   "theorems": [
    "C84_reload_refuted",
    "C84_reload_partial",
    "C84_replaced_partial",
    "C84_count_partial"
   ],
   "note": "Refuted as stated: changes before the last table go unnoticed, a table added behind a filled one replaces it, a shorter file makes it panic. C84_reload_partial (last table without room) and C84_replaced_partial (last table with room) describe the outcome, the tables known afterwards and the number returned for any content of the file; C84_count_partial gives count."
  },
  {
   "property": "C85",
   "status": "proved",
   "theorems": [
    "C85_processed",
    "C85_event",
    "C85_errors"
   ],
   "note": ""
  },
  {
   "property": "C86",
   "status": "proved",
   "theorems": [
    "C86_header_round_trip",
    "C86_header_truncated"
   ],
   "note": ""
  },
  {
   "property": "C87",
   "status": "proved",
   "theorems": [
    "C87_determined",
    "C87_whole",
    "C87_pieces",
    "C87_stream"
   ],
   "note": "SpecJudge.v says the judgement on the bytes alone; the packet stays in the buffer, so that the same report comes for ever, exactly in the cases Leave and ClearOnly of that definition. What an error says is left open except for too many blocks. Headers with a flag byte other than 0 and 1 are left out. In C87_stream the chunks may have any length when fewer than 21 foreign bytes precede each packet; otherwise they need 29 bytes, as in C28."
  },
  {
   "property": "C88",
   "status": "proved",
   "theorems": [
    "C88_waiting"
   ],
   "note": "In streams without foreign bytes, of packets that are dropped with their report."
  },
  {
   "property": "C89",
   "status": "proved",
   "theorems": [
    "C89_shared_storage",
    "C89_no_deaths",
    "C89_removed_lock_file"
   ],
   "note": "The inserts of one process are single steps of the interleaving, except that a process may die at any byte of one. That a death can leave a file nobody can open is C42. C89_removed_lock_file shows that the assumption about the lock file is needed: an acknowledged packet is lost."
  },
  {
   "property": "C90",
   "status": "partial",
   "theorems": [
    "C90_moments",
    "C90_moments_occur",
    "C90_poll_partial",
    "C90_calm",
    "C90_boundary",
    "C90_always_refuted"
   ],
   "note": "Refuted as stated (C90_always_refuted): a reload panics on a subtraction while the first packet of a slot is being written (from the 16th byte of its table on) and while the last packet of a slot is incomplete behind its table (C90_boundary). C90_poll_partial is the claim for every sequence of calls none of which panics; C90_calm says that calls at all other moments do not panic, except within the four checksum bytes of a table that becomes full, where it depends on the bytes. C90_moments and C90_moments_occur say that the moments considered are exactly the states of the file that an insert goes through."
  },
  {
   "property": "C91",
   "status": "partial",
   "theorems": [
    "C91_same",
    "C91_open_partial",
    "C91_ends_refuted",
    "C91_crash_partial",
    "C91_leftover",
    "C91_torn"
   ],
   "note": "Refuted as stated (C91_ends_refuted): a file of 28 bytes for which opening never ends. C91_open_partial gives the outcome for every file whose tables announce less than 2^64 bytes; a table of 2^61 entries and more still panics in the allocation. C91_same, C91_crash_partial, C91_leftover and C91_torn are about the rest of the claim; after some interruptions the storage cannot be opened (C91_torn), which is an error here and a panic in a debug build (C42)."
  },
  {
   "property": "C92",
   "status": "partial",
   "theorems": [
    "C92_same",
    "C92_poll_partial",
    "C92_boundary",
    "C92_announced_refuted"
   ],
   "note": "Refuted as stated (C92_announced_refuted): between the table and the packet of an insert that begins or fills a slot a call gives UnexpectedEof and the packet is never announced afterwards (C92_boundary). Everything else of the claim is C92_poll_partial, for all sequences of moments; C92_same compares the builds for any content of the file."
  },
  {
   "property": "C93",
   "status": "partial",
   "theorems": [
    "C93_same",
    "C93_no_panic_partial",
    "C93_panic_refuted",
    "C93_found",
    "C93_invented_refuted",
    "C93_lost_refuted",
    "C93_any_chunks"
   ],
   "note": "Refuted in three points: a header that announces nearly 2^64 bytes panics here too (C93_panic_refuted); when a read is shorter than a header, packets are lost without any error (C93_lost_refuted), and a packet is returned that nobody sent, the header of one and the blocks of another (C93_invented_refuted). C93_same compares the builds for any input; C93_no_panic_partial excludes panics for every input whose headers do not lie; C93_found says what a found packet always is; C93_any_chunks says for every stream and every cutting what is reported and, if something goes wrong, which read is thrown away and how the reader goes on."
  },
  {
   "property": "C94",
   "status": "partial",
   "theorems": [
    "C94_nth",
    "C94_nth_filtered",
    "C94_same",
    "C94_beyond_refuted",
    "C94_seek_refuted"
   ],
   "note": "Refuted in two points: a table whose lengths add up to more than 2^64 is accepted, and an entry that lies beyond the end of the file gives a packet from its beginning (C94_beyond_refuted); seeking behind a hole panics here too, with a capacity overflow, and so does seeking in a file that was cut (C94_seek_refuted). C94_nth and C94_nth_filtered give every outcome for any tables and any file, and exclude panics but for that of a header with a huge size in nth_filtered (C22); C94_same compares the builds."
  },
  {
   "property": "C95",
   "status": "partial",
   "theorems": [
    "C95_same",
    "C95_iterate_partial",
    "C95_ranges",
    "C95_missed_refuted",
    "C95_panic_refuted",
    "C95_any",
    "C95_any_filtered"
   ],
   "note": "Refuted for tables that announce 2^64 bytes and more, which opening accepts: a table whose lengths add up to 2^64 ends the iteration although nth finds the packets behind it (C95_missed_refuted), and tables that lead back make the iterator ask for nearly 2^64 bytes and panic (C95_panic_refuted). C95_same compares the builds call by call below that bound, also after seeking and when the file was changed; C95_iterate_partial gives all results for opened files and excludes panics but for those of headers with a huge size (C22); C95_any and C95_any_filtered say for all tables and any content of the file what the iterators give and with which panic they end. C95_ranges needs no bound."
  },
  {
   "property": "C96",
   "status": "partial",
   "theorems": [
    "C96_insert",
    "C96_opened",
    "C96_history",
    "C96_overwrites_refuted"
   ],
   "note": "Refuted for files that only a release build opens: lengths that add up to more than 2^64 make the free entry begin inside an earlier packet, and an insert that reports success overwrites it (C96_overwrites_refuted). For files that open with overflow checks C96_opened gives the first insert under any faults, C96_insert every insert while the sums stay below 2^64, C96_history whole histories of storages below 2^63 bytes. What later inserts into foreign tables with holes do once the sums exceed 2^64 is not described."
  }
 ]
}