{
 "claims": [
  {
   "property": "C01",
   "status": "proved",
   "theorems": [
    "C01_membership",
    "C01_isset_at_end_refuted"
   ],
   "note": "Maps of up to 2^62 blocks, any history. The refuted theorem records the out-of-bounds query at exactly the end of the map."
  },
  {
   "property": "C02",
   "status": "proved",
   "theorems": [
    "C02_next_free"
   ],
   "note": "Any history; least cyclic distance after the given block."
  },
  {
   "property": "C03",
   "status": "proved",
   "theorems": [
    "C03_mark_run",
    "C03_overhanging_run_refuted",
    "C03_overhanging_run_count_refuted"
   ],
   "note": "Requests inside the map. The refuted theorems record what happens to a run that sticks out."
  },
  {
   "property": "C04",
   "status": "proved",
   "theorems": [
    "C04_every_block_once",
    "C04_time_based_passes",
    "C04_draw64_overrun_refuted",
    "C04_draw64_out_of_bounds_refuted",
    "C04_mark_partial_tail_refuted"
   ],
   "note": "Every pass over the file issues each whole block exactly once for every draw sequence; the refuted theorems record corner cases of the code (64-bit draws at the very top of the range, overhanging last block)."
  },
  {
   "property": "C05",
   "status": "proved",
   "theorems": [
    "C05_permutation",
    "C05_every_pass",
    "C05_accepted_seeds",
    "C05_too_large_rejected",
    "C05_seed_refused_refuted"
   ],
   "note": "All widths 3..63 of the tap table are proved maximal by certificates (factorisations of 2^m-1 with proved primes). All spins 0..15 on a fresh generator; resets for spin 0, the only spin fio uses."
  },
  {
   "property": "C06",
   "status": "proved",
   "theorems": [
    "C06_queue",
    "C06_no_loss",
    "C06_size_not_power_of_two_refuted"
   ],
   "note": "Power-of-two capacities up to 2^31, all histories, 32-bit index wrap-around included; non-power-of-two sizes refuted."
  },
  {
   "property": "C07",
   "status": "proved",
   "theorems": [
    "C07_stack",
    "C07_stack_empty",
    "C07_ring",
    "C07_ring_overflow_undetected_refuted"
   ],
   "note": "All capacities and histories; the ring's overflow assertion is shown not to fire in one case."
  },
  {
   "property": "C08",
   "status": "proved",
   "theorems": [
    "C08_fill",
    "C08_compare",
    "C08_block_fill",
    "C08_block_verify"
   ],
   "note": "cpy_pattern, cmp_pattern, paste_format and the verify.c fill/verify of pattern blocks, all lengths and phases."
  },
  {
   "property": "C09",
   "status": "proved",
   "theorems": [
    "C09_items",
    "C09_any_input",
    "C09_passes_agree",
    "C09_far_hex_rejected_refuted",
    "C09_abort_refuted",
    "C09_uninitialised_refuted"
   ],
   "note": "Full grammar; needs the first 0x after a decimal to be less than 24 characters away, shown necessary by the refuted witness."
  },
  {
   "property": "C10",
   "status": "proved",
   "theorems": [
    "C10_disjoint",
    "C10_no_assert",
    "C10_contents",
    "C10_pool_layout",
    "C10_pool_layout_refuted"
   ],
   "note": "all histories of smalloc/sfree/user writes over any set of pools; ffz on all-ones is an oracle; pools of 4 GiB - 32 MiB or less (above, add_pool's mmap size wraps: refuted theorem)"
  },
  {
   "property": "C11",
   "status": "proved",
   "theorems": [
    "C11_free_count",
    "C11_restored",
    "C11_serves",
    "C11_fragmented_refuted",
    "C11_ffz_refuted"
   ],
   "note": "exact count, restoration, service from an unfragmented pool; refuted theorems: a fitting free run can be missed, and the outcome can depend on ffz of an all-ones word"
  },
  {
   "property": "C12",
   "status": "proved",
   "theorems": [
    "C12_error",
    "C12_index",
    "C12_representative",
    "C12_same_bucket",
    "C12_saturates"
   ],
   "note": ""
  },
  {
   "property": "C13",
   "status": "proved",
   "theorems": [
    "C13_percentiles",
    "C13_unique",
    "C13_list_end"
   ],
   "note": "threshold test in exact rational arithmetic (long double rounding not modelled)"
  },
  {
   "property": "C14",
   "status": "proved",
   "theorems": [
    "C14_samples",
    "C14_merge",
    "C14_merge_tree",
    "C14_order",
    "C14_report",
    "C14_pure_sum",
    "C14_merge_overflow_refuted",
    "C14_ramp_sync_refuted"
   ],
   "note": "exact rational arithmetic for double fields; deviation stated as its square; merging needs the product of sample counts below 2^64 (refuted above); the ramp-time reset does not clear the sync latency statistics (refuted)"
  },
  {
   "property": "C15",
   "status": "proved",
   "theorems": [
    "C15_ntime",
    "C15_utime",
    "C15_utime_monotone",
    "C15_rel",
    "C15_mtime",
    "C15_time",
    "C15_mtime_tv",
    "C15_add_msec",
    "C15_sleep",
    "C15_sleep_exact"
   ],
   "note": ""
  },
  {
   "property": "C16",
   "status": "proved",
   "theorems": [
    "C16_calibrates",
    "C16_accurate",
    "C16_monotone",
    "C16_no_jump",
    "C16_timespec",
    "C16_fits_ghz"
   ],
   "note": "cycles_per_msec is an arbitrary input; its measurement is not modelled"
  },
  {
   "property": "C17",
   "status": "proved",
   "theorems": [
    "C17_crc_unique",
    "C17_crc7",
    "C17_crc16",
    "C17_crc32",
    "C17_crc32c",
    "C17_crc64",
    "C17_crc64_nvme",
    "C17_t10dif",
    "C17_chain",
    "C17_crc32c_hw",
    "C17_crc32c_hw_wrap_refuted"
   ],
   "note": "Each table driven function returns the GF(2) polynomial remainder for every buffer. The SSE4.2 path is proved equal given the documented meaning of the CRC32 instruction; ARM and ISA-L paths are not modelled."
  },
  {
   "property": "C18",
   "status": "proved",
   "theorems": [
    "C18_burst_msb",
    "C18_burst_lsb",
    "C18_bytes"
   ],
   "note": "Bursts of at most w bits in the bit order the CRC processes; corollary for w/8 consecutive bytes."
  },
  {
   "property": "C19",
   "status": "proved",
   "theorems": [
    "C19_md5",
    "C19_sha1",
    "C19_sha256",
    "C19_sha512",
    "C19_sha3",
    "C19_xxhash",
    "C19_messages_differ",
    "C19_messages_whole",
    "C19_sha512_long_chunk_refuted"
   ],
   "note": "md5, sha1, sha256, sha512, sha3 and xxhash contexts with the concrete compression functions: for any chunking and any initial buffer, the digest is the compression folded over the padded message. Chunks are bounded by the int/unsigned length arithmetic (sha512: below 2^29 bytes; a longer single chunk is refuted)."
  },
  {
   "property": "C20",
   "status": "proved",
   "theorems": [
    "C20_touch",
    "C20_history",
    "C20_latest",
    "C20_verify_latest",
    "C20_nothing_lost",
    "C20_prune",
    "C20_len_refuted",
    "C20_trim_failed_refuted",
    "C20_trim_inflight_refuted",
    "C20_list_blocked"
   ],
   "note": "Any sequence of logged writes, completions, failures, short writes, verifications and trims, on the pointer tree of C35 with explicit allocation. A failure of a write that waits for trimming is excluded because the code then uses freed memory (refuted theorem); the io_hist_len counter drifts when a replaced write fails (refuted theorem)."
  },
  {
   "property": "C21",
   "status": "proved",
   "theorems": [
    "C21_roundtrip",
    "C21_payload",
    "C21_refill",
    "C21_interval",
    "C21_unaligned",
    "C21_block_size_refuted",
    "C21_offset_refuted"
   ],
   "note": "For every type, header offset clear of the header, pattern or random payload and number of blocks. Refuted for accepted header offsets that overlap the header and for block sizes that are no multiple of the interval."
  },
  {
   "property": "C22",
   "status": "proved",
   "theorems": [
    "C22_verdict",
    "C22_unchecked",
    "C22_zeroed",
    "C22_misplaced",
    "C22_header_damage",
    "C22_pattern_damage",
    "C22_payload_damage",
    "C22_damage_missed_refuted",
    "C22_fatal_header_refuted"
   ],
   "note": "Exact verdict on any buffer; detection in every block with verify_fatal and in the last block without it. Refuted for payload damage in earlier blocks of an I/O without verify_fatal."
  },
  {
   "property": "C23",
   "status": "proved",
   "theorems": [
    "C23_roundtrip",
    "C23_distinct_files",
    "C23_rejects",
    "C23_content",
    "C23_damage",
    "C23_truncated",
    "C23_long_name_refuted",
    "C23_short_body_refuted",
    "C23_no_files_refuted"
   ],
   "note": "Round trip for any number of jobs and any contents; acceptance characterised for every file content; damage and truncation rejected. Job names up to 63 characters (C23_long_name_refuted otherwise), files long enough for their entry count (C23_short_body_refuted otherwise), jobs with at least one file. Little-endian machine; system calls succeed and transfer everything."
  },
  {
   "property": "C24",
   "status": "proved",
   "theorems": [
    "C24_skip",
    "C24_decide",
    "C24_saved_decides",
    "C24_online",
    "C24_no_abort",
    "C24_crash_safe",
    "C24_issue_race_refuted",
    "C24_fail_race_refuted",
    "C24_sync_error_refuted",
    "C24_fsync_inflight_refuted"
   ],
   "note": "Decisions characterised for every loaded state and write number; over all interleavings of the job with the saving thread in which no write is issued while the state is read, a verified write had completed. The races and the unrecorded synchronous errors are the _refuted theorems. Sequential consistency assumed."
  },
  {
   "property": "C25",
   "status": "proved",
   "theorems": [
    "C25_slope",
    "C25_deviation",
    "C25_attained",
    "C25_mean",
    "C25_rate",
    "C25_intervals",
    "C25_long_window_refuted",
    "C25_rate_late_refuted",
    "C25_interval_refuted"
   ],
   "note": "Windows of 1 (deviation) or 2 (slope) to 1024 intervals, sums of the window below 2^64 for the readings; double arithmetic exact. Longer windows, late checks and intervals above 65 s are refuted."
  },
  {
   "property": "C26",
   "status": "proved",
   "theorems": [
    "C26_new",
    "C26_check",
    "C26_no_false_negative",
    "C26_positive",
    "C26_file_names",
    "C26_empty_filter_refuted"
   ],
   "note": "For every list of hash functions, filter size and sequence of operations; with the file-name list behind the filter the answer is exact. The five hash functions themselves are a parameter."
  },
  {
   "property": "C27",
   "status": "proved",
   "theorems": [
    "C27_encoding",
    "C27_round_trip",
    "C27_zero",
    "C27_decode",
    "C27_subnormal_refuted",
    "C27_infinity_refuted"
   ],
   "note": "Every normal double, any long double precision of 53 bits or more on either side; subnormals, infinities and NaN are refuted."
  },
  {
   "property": "C28",
   "status": "proved",
   "theorems": [
    "C28_safe",
    "C28_latency_entry",
    "C28_latency",
    "C28_latency_run",
    "C28_depth_entry",
    "C28_depth",
    "C28_depth_done",
    "C28_depth_commit",
    "C28_depth_run",
    "C28_submit_entry",
    "C28_submit_run",
    "C28_merge",
    "C28_percent_sum",
    "C28_percent",
    "C28_depth_percent_refuted",
    "C28_terse_empty_refuted"
   ],
   "note": "latency, depth, submit and complete distributions, their merge and percentages; depth percentages exceed 100 with syncs and the terse output divides by zero for an empty job (refuted theorems)"
  },
  {
   "property": "C29",
   "status": "proved",
   "theorems": [
    "C29_starts_inside",
    "C29_range_inside",
    "C29_aligned",
    "C29_fixed_inside",
    "C29_zone",
    "C29_sequential_loop",
    "C29_sequential_once",
    "C29_random_block",
    "C29_last_block",
    "C29_trim_then_write",
    "C29_fixed_inside_refuted",
    "C29_holed_wrap_refuted",
    "C29_backward_start_refuted",
    "C29_zone_region_refuted",
    "C29_zone_range_refuted",
    "C29_last_block_refuted"
   ],
   "note": "Offsets, lengths and last positions over all runs of one file; generators, should_do_random and the random map are inputs. Not modelled: zbd zones, multi range trims. Violations of the intended property by the code are the _refuted theorems."
  },
  {
   "property": "C30",
   "status": "proved",
   "theorems": [
    "C30_size",
    "C30_multiple",
    "C30_progress",
    "C30_uniform",
    "C30_split",
    "C30_split_shares",
    "C30_split_percents",
    "C30_split_options",
    "C30_split_rounded_refuted",
    "C30_livelock_refuted",
    "C30_over_100_refuted"
   ],
   "note": "get_next_buflen for every draw and configuration, and the percentages of bssplit; sizes that are not multiples of the smallest split size are never issued, an entry without share can make the loop endless, percentages above 100 wrap (refuted theorems)"
  },
  {
   "property": "C31",
   "status": "proved",
   "theorems": [
    "C31_draw",
    "C31_flush",
    "C31_flush_count",
    "C31_mix",
    "C31_share",
    "C31_pure",
    "C31_busy",
    "C31_rate",
    "C31_backlog_refuted",
    "C31_backlog_busy_refuted",
    "C31_timeout_refuted"
   ],
   "note": "Choice of direction, flushes, mix and rates, for all draws, clocks and engine answers. The quality of the random generator itself is not part of the property."
  },
  {
   "property": "C32",
   "status": "proved",
   "theorems": [
    "C32_replay_reproduces",
    "C32_pauses",
    "C32_readonly",
    "C32_skip",
    "C32_no_stall",
    "C32_align",
    "C32_range_sync_refuted",
    "C32_long_io_refuted",
    "C32_blank_name_refuted",
    "C32_only_syncs_refuted",
    "C32_directory_refuted",
    "C32_total_refuted"
   ],
   "note": "Version 3 logs; names without white space and up to 256 characters, I/Os below 4 GiB, read/write/trim/sync/datasync; counterexamples outside."
  },
  {
   "property": "C33",
   "status": "proved",
   "theorems": [
    "C33_send",
    "C33_send_vector",
    "C33_intact_or_rejected",
    "C33_delivered",
    "C33_end_to_end",
    "C33_too_long",
    "C33_accepted_was_checked",
    "C33_no_fault",
    "C33_damage_rejected",
    "C33_vector_overrun_refuted",
    "C33_empty_part_refuted",
    "C33_text_length_refuted",
    "C33_mixed_tags_refuted"
   ],
   "note": "Any payload, opcode, tag and any behaviour of writev and recv; vectored sending only when no writev stops inside a frame (counterexample otherwise)."
  },
  {
   "property": "C34",
   "status": "proved",
   "theorems": [
    "C34_any_comparison",
    "C34_sorted",
    "C34_unique",
    "C34_btrace_order",
    "C34_btrace_truncation_refuted"
   ],
   "note": "On the next/prev pointer heap, for lists of every length (including more than 2^20 elements) and every comparison function; sorted and stable whenever the comparison is a total preorder on the elements."
  },
  {
   "property": "C35",
   "status": "proved",
   "theorems": [
    "C35_insert",
    "C35_erase",
    "C35_first",
    "C35_next",
    "C35_enumerate",
    "C35_height",
    "C35_sequence",
    "C35_spec_insert"
   ],
   "note": "Pointer-level model of lib/rbtree.c (rotations, rb_insert_color, rb_erase, rb_first, rb_next). Any sequence of inserts and erases from an arbitrary heap; fuel bound is the logarithmic height."
  },
  {
   "property": "C36",
   "status": "proved",
   "theorems": [
    "C36_in_order",
    "C36_exactly_once",
    "C36_never_twice",
    "C36_flush",
    "C36_exit",
    "C36_no_sleep_on_work",
    "C36_next_in_range",
    "C36_progress",
    "C36_calls_return",
    "C36_choice"
   ],
   "note": "Any number of workers, any interleaving; calls on the queue are serialized as the code demands; mutexes and condition variables as POSIX specifies them, with spurious wake-ups (the bound on the length of a call excludes them)."
  },
  {
   "property": "C37",
   "status": "proved",
   "theorems": [
    "C37_snapshot_is_the_latest_completed_value",
    "C37_snapshots_never_go_back",
    "C37_memory_between_updates",
    "C37_no_reader_starts_in_an_update",
    "C37_wrapped_sequence_refuted",
    "C37_unordered_stores_refuted"
   ],
   "note": "All interleavings of one writer and any number of readers, any number of words, stores visible in order, fewer than 2^31 updates during one round of the loop; both conditions are shown to be needed."
  },
  {
   "property": "C38",
   "status": "proved",
   "theorems": [
    "C38_exclusive",
    "C38_one_holder",
    "C38_held_once",
    "C38_released",
    "C38_wait_has_holder",
    "C38_no_deadlock",
    "C38_all_free",
    "C38_unlock_finds",
    "C38_try_fails_busy",
    "C38_try_fails_full",
    "C38_trylock_blocks_refuted",
    "C38_collision_refuted"
   ],
   "note": "Every number of jobs below 2^32-2, every interleaving, every hash; jobs unlock only what they hold."
  },
  {
   "property": "C39",
   "status": "proved",
   "theorems": [
    "C39_accepted",
    "C39_at_write_pointer",
    "C39_conventional",
    "C39_limit",
    "C39_tracking",
    "C39_pointer",
    "C39_no_abort",
    "C39_locks",
    "C39_read",
    "C39_setup",
    "C39_long_conventional_refuted",
    "C39_trim_in_flight_refuted",
    "C39_busy_leaks_slot_refuted",
    "C39_job_counter_refuted",
    "C39_trim_assert_refuted",
    "C39_read_beyond_capacity_refuted",
    "C39_stale_start_refuted",
    "C39_empty_write_refuted",
    "C39_outside_range_refuted"
   ],
   "note": "One job; writes longer than a zone that start in a conventional zone, trims while writes are in flight or that may meet conventional or offline zones are excluded by op_ok, with refutations for what happens otherwise. C39_accepted: every command the device gets is legal on a specification device (write at the pointer, within capacity, open limit). C39_no_abort: assertions hold, locks balance, searches end."
  },
  {
   "property": "C40",
   "status": "proved",
   "theorems": [
    "C40_size_suffixes",
    "C40_default_base",
    "C40_short_iec_read_as_si",
    "C40_short_iec_refuted",
    "C40_time_suffixes",
    "C40_sec_read_as_microseconds",
    "C40_sec_refuted",
    "C40_unknown_time_word",
    "C40_percent",
    "C40_hexadecimal",
    "C40_hexadecimal_seconds_refuted",
    "C40_hexadecimal_suffix_refuted",
    "C40_no_number_refused",
    "C40_too_large_refused",
    "C40_wrapped_product_refuted",
    "C40_limited_negative_refuted",
    "C40_stale_errno_refuted"
   ],
   "note": "All signed decimal numbers with every documented suffix in any letter case, alone or before a separator, whose product is a long long; the documented suffixes that the code does not implement (ki.., sec) are shown to be misread for all numbers."
  },
  {
   "property": "C41",
   "status": "proved",
   "theorems": [
    "C41_fast",
    "C41_slow",
    "C41_verify_zero",
    "C41_trimmed"
   ],
   "note": "Every buffer and length; also that no byte outside the buffer is read."
  },
  {
   "property": "C42",
   "status": "proved",
   "theorems": [
    "C42_report_reads_back",
    "C42_value_reads_back",
    "C42_string_reads_back",
    "C42_escape_stays_in_its_block",
    "C42_no_two_reports_alike",
    "C42_always_prints",
    "C42_name_refuted",
    "C42_control_character_refuted",
    "C42_not_a_number_refuted",
    "C42_infinity_refuted"
   ],
   "note": "All trees of strings without control characters, integers and finite floats under names that need no escape read back by an RFC 8259 reader; the other strings, names and floats are shown to give refused texts."
  },
  {
   "property": "C43",
   "status": "proved",
   "theorems": [
    "C43_partition",
    "C43_one_per_period"
   ],
   "note": "storing a log entry is assumed to succeed (see C44 for the storage)"
  },
  {
   "property": "C44",
   "status": "proved",
   "theorems": [
    "C44_places",
    "C44_depth",
    "C44_no_abort",
    "C44_life",
    "C44_complete",
    "C44_in_flight",
    "C44_requeue_first",
    "C44_latency_depth",
    "C44_quiesce",
    "C44_blocks",
    "C44_bytes",
    "C44_issue_bytes",
    "C44_issues",
    "C44_quiesce_refuted",
    "C44_nothing_moved_refuted",
    "C44_bytes_refuted",
    "C44_issue_bytes_refuted",
    "C44_issues_refuted",
    "C44_busy_verify_refuted"
   ],
   "note": "The counter theorems hold for executions without the short transfers or verify reads named in them; the refuted theorems show that these restrictions, and the promise of the engine, are needed."
  },
  {
   "property": "C45",
   "status": "proved",
   "theorems": [
    "C45_atomic",
    "C45_value",
    "C45_exclusive",
    "C45_waiters",
    "C45_progress",
    "C45_ends",
    "C45_settles",
    "C45_no_lost_wakeup",
    "C45_not_early",
    "C45_deadline",
    "C45_lost_wakeup_refuted",
    "C45_double_check_refuted",
    "C45_timeout_dropped_refuted"
   ],
   "note": "Linearizable; exclusion; waiters counted; all activity ends; no lost wake-up when used as a lock or with one waiter; with two waiters and two ups a wake-up is lost (refuted); timeouts not early; the double check uses the wrong clock (refuted)."
  },
  {
   "property": "C46",
   "status": "proved",
   "theorems": [
    "C46_never_stuck32",
    "C46_never_stuck64",
    "C46_period32",
    "C46_period64",
    "C46_size",
    "C46_seeds32",
    "C46_seeds64",
    "C46_seeds32_refuted",
    "C46_short_period_refuted",
    "C46_seeds64_refuted",
    "C46_between32",
    "C46_between64",
    "C46_scaled",
    "C46_fraction",
    "C46_above_refuted",
    "C46_whole_refuted",
    "C46_int_refuted"
   ],
   "note": "Exact periods of both generators from every live state; all but four 32-bit seeds give it; draws in bounds; bad seeds, draws above the bound and wrapped bounds refuted."
  },
  {
   "property": "C47",
   "status": "proved",
   "theorems": [
    "C47_cap",
    "C47_cap_bytes",
    "C47_cap_iops",
    "C47_ignore_think",
    "C47_catch_up",
    "C47_unlimited",
    "C47_switch",
    "C47_sleep_until",
    "C47_sleep",
    "C47_sleep_requests",
    "C47_bssplit",
    "C47_bssplit_iops",
    "C47_poisson",
    "C47_think_when",
    "C47_think_long",
    "C47_think_cut",
    "C47_min_bytes",
    "C47_min_iops",
    "C47_min_stall",
    "C47_signal_refuted",
    "C47_deadline_refuted",
    "C47_bssplit_refuted",
    "C47_poisson_refuted",
    "C47_think_cut_refuted",
    "C47_min_both_refuted"
   ],
   "note": "Cap in bytes and I/Os per second in every run, catching up, sleeping, pauses and minimum rates; interrupted sleeps, the last microsecond, bssplit rounding and Poisson division by zero refuted."
  },
  {
   "property": "C48",
   "status": "proved",
   "theorems": [
    "C48_random_length",
    "C48_random_words",
    "C48_random_seed",
    "C48_random_fresh",
    "C48_random_zero",
    "C48_share_length",
    "C48_share",
    "C48_share_soft",
    "C48_share_endless_refuted",
    "C48_plain",
    "C48_filled",
    "C48_compressed",
    "C48_repeat",
    "C48_repeat_count",
    "C48_all_same",
    "C48_set",
    "C48_working_set",
    "C48_set_refuted",
    "C48_set_empty_refuted"
   ],
   "note": "random data, compressible share, duplicates and working sets; three refuted corner cases"
  },
  {
   "property": "C49",
   "status": "proved",
   "theorems": [
    "C49_bounds",
    "C49_in_flight",
    "C49_down",
    "C49_floor",
    "C49_up",
    "C49_steady",
    "C49_counts",
    "C49_verdict",
    "C49_verdict_all",
    "C49_verdict_none",
    "C49_finds",
    "C49_settles",
    "C49_swings_refuted",
    "C49_goes_on",
    "C49_stays",
    "C49_end",
    "C49_storm_refuted",
    "C49_mixed_refuted"
   ],
   "note": "depth bounds, verdict, convergence and settling; three refuted corner cases"
  },
  {
   "property": "C50",
   "status": "proved",
   "theorems": [
    "C50_counters",
    "C50_last",
    "C50_progress",
    "C50_share",
    "C50_share_lower",
    "C50_waits",
    "C50_goes",
    "C50_absent_refuted"
   ],
   "note": "Counters under every interleaving, progress, both bounds of the share; refuted: an absent member stalls the group."
  },
  {
   "property": "C51",
   "status": "proved",
   "theorems": [
    "C51_safe",
    "C51_references",
    "C51_limit",
    "C51_usable",
    "C51_busy",
    "C51_first",
    "C51_turns",
    "C51_not_for_ever",
    "C51_random",
    "C51_end",
    "C51_sequential",
    "C51_draw",
    "C51_draw64_refuted",
    "C51_draw_skewed",
    "C51_runs",
    "C51_skewed_refuted",
    "C51_verify_refuted",
    "C51_order_refuted",
    "C51_half_refuted",
    "C51_zero_refuted"
   ],
   "note": "References, limit, turns, progress and order over all reachable states; six refuted corner cases."
  },
  {
   "property": "C52",
   "status": "proved",
   "theorems": [
    "C52_params",
    "C52_merge",
    "C52_scaling",
    "C52_rounds_refuted",
    "C52_skipped_refuted",
    "C52_payload_refuted",
    "C52_twice_refuted",
    "C52_empty_refuted",
    "C52_memory_refuted"
   ],
   "note": "Each trace once: exact interleaving in order of time, with scaled times; six refuted cases for rounds, empty traces and uninitialised counters."
  },
  {
   "property": "C53",
   "status": "proved",
   "theorems": [
    "C53_value",
    "C53_always",
    "C53_reads_back",
    "C53_reads_back_refuted",
    "C53_bytes",
    "C53_length_refuted",
    "C53_small_refuted",
    "C53_huge_refuted",
    "C53_bits_refuted",
    "C53_kib_refuted"
   ],
   "note": "All 64-bit numbers; exact if it fits, else half of the last digit; composed with the option parser; six refuted cases."
  },
  {
   "property": "C54",
   "status": "proved",
   "theorems": [
    "C54_percentages",
    "C54_directions",
    "C54_bytes",
    "C54_shares",
    "C54_inside",
    "C54_inside_bytes",
    "C54_beyond",
    "C54_sequence",
    "C54_stride",
    "C54_single_refuted",
    "C54_small_refuted",
    "C54_gap_refuted",
    "C54_nonsense_refuted",
    "C54_manual_refuted",
    "C54_lfsr_refuted",
    "C54_last_refuted",
    "C54_marker_refuted",
    "C54_wrap_refuted"
   ],
   "note": "Parsing at the level of characters; random numbers are inputs; blocks below 2^53."
  },
  {
   "property": "C55",
   "status": "proved",
   "theorems": [
    "C55_ids",
    "C55_range",
    "C55_rejects",
    "C55_table",
    "C55_roundrobin",
    "C55_random",
    "C55_scheme",
    "C55_others",
    "C55_text_refuted",
    "C55_twice_refuted",
    "C55_empty_refuted",
    "C55_index_refuted",
    "C55_entries_refuted"
   ],
   "note": "plids at the level of characters; numbers of the scheme file are given."
  },
  {
   "property": "C56",
   "status": "proved",
   "theorems": [
    "C56_once",
    "C56_counts",
    "C56_stonewall",
    "C56_behind",
    "C56_delay_and_wait",
    "C56_done",
    "C56_never_stuck",
    "C56_progress",
    "C56_terminated_refuted",
    "C56_wrap_refuted",
    "C56_delayed_wall_refuted"
   ],
   "note": "Jobs set themselves up without dying; stuck jobs are not forced."
  },
  {
   "property": "C57",
   "status": "proved",
   "theorems": [
    "C57_divide",
    "C57_equal",
    "C57_all",
    "C57_fixed",
    "C57_range",
    "C57_percent",
    "C57_inside",
    "C57_amount",
    "C57_error",
    "C57_blocks_refuted",
    "C57_range_refuted",
    "C57_wrap_refuted",
    "C57_offset_refuted"
   ],
   "note": "Sizes as percentages are of what is there (no size=, no filesize=); range theorem for random numbers that are not rounded up to 2^64 and files below 2^53 bytes."
  },
  {
   "property": "C58",
   "status": "proved",
   "theorems": [
    "C58_when",
    "C58_blocks",
    "C58_every",
    "C58_long",
    "C58_total",
    "C58_runtime",
    "C58_rate",
    "C58_no_rate",
    "C58_reset",
    "C58_sleep",
    "C58_requests",
    "C58_hour_refuted",
    "C58_late_refuted",
    "C58_never_again",
    "C58_reset_refuted"
   ],
   "note": "One data direction; what the clock, the scheduler and the device do is an input. Overlaps with C47, which has its own model of the same functions; the counts over all calls, left as an int and the reset are new."
  },
  {
   "property": "C59",
   "status": "proved",
   "theorems": [
    "C59_read_back",
    "C59_unambiguous",
    "C59_fits",
    "C59_fits_before",
    "C59_letters",
    "C59_time",
    "C59_units",
    "C59_time_fits",
    "C59_mix_refuted",
    "C59_days_refuted"
   ],
   "note": "Letters and times at the level of characters; the ETA estimate itself is not modelled."
  }
 ]
}