{"id": "C01", "title": "Random map: membership is exactly the marked blocks", "statement": "After any sequence of mark operations on a freshly created block map, asking whether a block is marked answers yes exactly for the blocks that some earlier mark operation reported as newly marked, and no for every other block; resetting the map makes every answer no.", "quantifier": "every map size, every sequence of single and ranged marks with any block numbers and lengths, every queried block", "why_tests_cant": "The map is a tree of bitmaps whose depth depends on its size; the answer depends on the whole history of marks, so no finite set of sequences and sizes covers it.", "anchors": ["lib/axmap.c:axmap_set", "lib/axmap.c:axmap_set_nr", "lib/axmap.c:axmap_isset", "lib/axmap.c:axmap_reset", "lib/axmap.c:axmap_new"]}
{"id": "C02", "title": "Random map: next free block is the cyclically next unmarked one", "statement": "Asking for the next free block at or after a block returns the first unmarked block at or after it, wrapping to the start of the map if there is none above; the 'none' value is returned only when every block of the map is marked.", "quantifier": "every map size, every reachable map state, every starting block", "why_tests_cant": "Correctness depends on the consistency of all summary levels of the bitmap tree after an arbitrary history.", "anchors": ["lib/axmap.c:axmap_next_free", "lib/axmap.c:axmap_find_first_free"]}
{"id": "C03", "title": "Random map: ranged mark stops at the first already marked block", "statement": "Marking a run of blocks marks exactly the longest prefix of the run that was unmarked and lies inside the map, and returns its length; nothing else changes.", "quantifier": "every map size, every reachable state, every starting block and run length", "why_tests_cant": "The result depends on overlaps within and across 64-bit words at several levels, for arbitrary prior contents.", "anchors": ["lib/axmap.c:axmap_set_nr", "lib/axmap.c:axmap_set_fn"]}
{"id": "C04", "title": "Random I/O with a random map touches every block exactly once", "statement": "With the random map enabled and fixed block size, a random job issues every block of the file exactly once before any block is issued again, whatever values the random generator produces, and reports the end exactly when all blocks have been issued.", "quantifier": "every number of blocks, every sequence of random numbers", "why_tests_cant": "It must hold for all random streams and all file sizes.", "anchors": ["io_u.c:get_next_rand_offset", "io_u.c:get_off_from_method", "io_u.c:mark_random_map", "lib/axmap.c:axmap_next_free"]}
{"id": "C05", "title": "LFSR offset generator is a permutation", "statement": "An LFSR random generator created for n blocks yields, from any seed, n values that are all different and all below n, and then reports exhaustion.", "quantifier": "every supported size, every seed", "why_tests_cant": "The space of (size, seed) pairs is huge, and the property rests on the primitivity of every tap polynomial in the table.", "anchors": ["lib/lfsr.c:lfsr_init", "lib/lfsr.c:lfsr_next", "lib/lfsr.c:lfsr_taps"]}
{"id": "C06", "title": "Byte FIFO delivers the bytes put, in order, without loss", "statement": "For any sequence of puts and gets on a fifo, the concatenation of everything returned by gets followed by the current content equals the concatenation of the accepted prefixes of the puts; a put accepts min(len, free) bytes and a get returns min(len, used).", "quantifier": "every power-of-two capacity, every sequence of operations, including counter wrap-around", "why_tests_cant": "The free running 32-bit indices wrap after 4 GiB of traffic and interact with the buffer wrap; a test cannot cover all alignments and histories.", "anchors": ["fifo.c:fifo_put", "fifo.c:fifo_get", "fifo.h:fifo_len", "fifo.h:fifo_room"]}
{"id": "C07", "title": "Free-list and completion queues never lose or duplicate an I/O unit", "statement": "The io_u stack returns exactly the multiset of units pushed and not yet popped, last in first out; the io_u ring returns the units in the order pushed provided no more than the number it was created for are pushed at once.", "quantifier": "every queue size, every interleaving of pushes and pops", "why_tests_cant": "Unbounded histories with index wrap-around.", "anchors": ["io_u_queue.h:io_u_qpush", "io_u_queue.h:io_u_qpop", "io_u_queue.h:io_u_rpush", "io_u_queue.h:io_u_rpop", "io_u_queue.c:io_u_rinit"]}
{"id": "C08", "title": "Buffer patterns: a filled buffer always compares equal, a differing byte is always found", "statement": "Filling a buffer with a pattern produces the pattern repeated from its start, and comparing a buffer with the pattern at a phase succeeds exactly when each byte equals the corresponding byte of the repeated pattern.", "quantifier": "every pattern length >= 1, every buffer length, every phase, every buffer content", "why_tests_cant": "Quantifies over all buffers and all pattern lengths; the doubling copy has many boundary cases.", "anchors": ["lib/pattern.c:cpy_pattern", "lib/pattern.c:cmp_pattern", "lib/pattern.c:dup_pattern"]}
{"id": "C09", "title": "Pattern strings are parsed to the bytes they denote, inside the caller's buffer", "statement": "Parsing a pattern option never writes beyond the buffer it was given, returns the number of bytes written, and for decimal, hex and quoted string items writes exactly the bytes the documentation says, in order.", "quantifier": "every input string, every output buffer size", "why_tests_cant": "All strings, including malformed ones.", "anchors": ["lib/pattern.c:parse_and_fill_pattern", "lib/pattern.c:parse_string", "lib/pattern.c:parse_number"]}
{"id": "C10", "title": "Shared memory allocator: live allocations never overlap", "statement": "Any two allocations obtained and not yet freed occupy disjoint block ranges inside the pool, each large enough for the requested size and its header and red zones.", "quantifier": "every pool size, every sequence of allocations and frees of live pointers", "why_tests_cant": "Depends on the full history of the bitmap and its search hints.", "anchors": ["smalloc.c:smalloc", "smalloc.c:sfree", "smalloc.c:__smalloc_pool", "smalloc.c:find_next_zero"]}
{"id": "C11", "title": "Shared memory allocator: freed space is reusable and the free count is exact", "statement": "The free block count always equals the number of blocks not covered by a live allocation, so freeing everything restores the initial state and a pool with no live allocation can satisfy any request that fits.", "quantifier": "every sequence of allocations and frees", "why_tests_cant": "History dependent counter consistency.", "anchors": ["smalloc.c:smalloc", "smalloc.c:sfree_pool", "smalloc.c:set_blocks", "smalloc.c:clear_blocks"]}
{"id": "C12", "title": "Latency histogram buckets: bounded relative error, no out-of-range index", "statement": "Every latency value maps to a valid histogram bucket, the mapping is monotone, and the value reported for the bucket differs from the recorded latency by at most 1/128 of it (for latencies below the tracked maximum).", "quantifier": "every 64-bit latency value", "why_tests_cant": "2^64 inputs.", "anchors": ["stat.c:plat_val_to_idx", "stat.c:plat_idx_to_val"]}
{"id": "C13", "title": "Reported percentiles are real percentiles of the recorded samples", "statement": "For any collection of latencies and any sorted list of percentiles, the value printed for percentile p is the representative of the bucket containing the smallest sample x such that at least p percent of the samples are in buckets at or below it; the percentile values are non-decreasing, and min/max outputs bound them.", "quantifier": "every multiset of samples, every percentile list", "why_tests_cant": "Unbounded multisets.", "anchors": ["stat.c:calc_clat_percentiles", "stat.c:plat_val_to_idx", "stat.c:plat_idx_to_val"]}
{"id": "C14", "title": "Running mean/deviation equals the batch statistic, and merging equals pooling", "statement": "In exact arithmetic, adding samples one by one yields their true count, minimum, maximum, mean and sum of squared deviations, and summing the statistics of two jobs yields exactly the statistics of the concatenated sample lists.", "quantifier": "all sample lists, all splits of them between jobs and all merge orders", "why_tests_cant": "Unbounded lists; floating point tests cannot establish the identity.", "anchors": ["stat.c:add_stat_sample", "stat.c:__sum_stat", "stat.c:sum_stat"]}
{"id": "C15", "title": "Elapsed time helpers are exact, monotone and never negative", "statement": "For normalised timestamps, the nanosecond helper returns exactly max(0, e-s); the microsecond and millisecond helpers return it in their unit with error below one unit; all return 0 when the end precedes the start, and adding milliseconds to a timestamp keeps it normalised and adds exactly that amount. A timed sleep issues only well-formed requests shorter than two seconds, lasts at least the time asked for unless it is interrupted, stops at the first interruption, and returns exactly the time it spent.", "quantifier": "every pair of timestamps; every sequence of sleep outcomes", "why_tests_cant": "All pairs of 64-bit timestamps, including backwards clocks.", "anchors": ["gettime.c:ntime_since", "gettime.c:utime_since", "gettime.c:mtime_since", "gettime.c:rel_time_since", "gettime.c:mtime_since_tv", "time.c:timespec_add_msec", "time.c:usec_sleep"]}
{"id": "C16", "title": "CPU clock conversion is overflow-free and monotone", "statement": "With the calibration constants computed for any positive clock rate, converting a cycle count to nanoseconds never overflows 64-bit arithmetic within the supported range, is monotone in the cycle count, and is close to the true value.", "quantifier": "every calibrated clock frequency, every cycle count", "why_tests_cant": "Depends on the machine's frequency and on uptime; a test sees one frequency.", "anchors": ["gettime.c:calibrate_cpu_clock", "gettime.c:__fio_gettime"]}
{"id": "C17", "title": "Table driven CRCs compute the polynomial remainder", "statement": "For every buffer, the crc7, crc16, crc32, crc32c, crc64 and T10-DIF functions return the remainder defined by their generator polynomial processed bit by bit.", "quantifier": "every byte buffer of any length", "why_tests_cant": "Unbounded inputs, 256-entry tables.", "anchors": ["crc/crc7.c:fio_crc7", "crc/crc16.c:fio_crc16", "crc/crc32.c:fio_crc32", "crc/crc32c.c:crc32c_sw", "crc/crc64.c:fio_crc64", "crc/crct10dif_common.c:fio_crc_t10dif"]}
{"id": "C18", "title": "CRC verification detects every burst error up to the checksum width", "statement": "Two buffers of the same length that differ only inside a window of at most w consecutive bits (w the checksum width) always have different checksums.", "quantifier": "every pair of buffers, every position and shape of the burst", "why_tests_cant": "Astronomically many error patterns.", "anchors": ["crc/crc16.c:fio_crc16", "crc/crc32.c:fio_crc32", "crc/crc32c.c:crc32c_sw", "crc/crc64.c:fio_crc64"]}
{"id": "C19", "title": "Streaming digests do not depend on how the data is chunked", "statement": "Feeding a digest context the data in any sequence of chunks gives the same digest as feeding it in one call.", "quantifier": "every message, every way to split it", "why_tests_cant": "Unbounded messages and splits; buffer boundary bugs hide in particular alignments.", "anchors": ["crc/md5.c:fio_md5_update", "crc/sha256.c:fio_sha256_update", "crc/sha512.c:fio_sha512_update", "crc/sha1.c:fio_sha1_update", "crc/sha3.c:fio_sha3_update", "crc/xxhash.c:XXH32_update"]}
{"id": "C20", "title": "Write history holds non-overlapping, most recent writes", "statement": "While a verify job runs with the history tree, the recorded write ranges of one file never overlap, and each recorded range is a write that no later write overlapped.", "quantifier": "every sequence of writes of any offsets and lengths to any files", "why_tests_cant": "Depends on the whole history of overlaps and evictions.", "anchors": ["iolog.c:log_io_piece", "iolog.c:unlog_io_piece", "iolog.c:trim_io_piece", "verify.c:get_next_verify"]}
{"id": "C21", "title": "A block written and read back intact passes verification", "statement": "If the data read back is the data that was written for that I/O, then verification of every checksum type succeeds, whatever the interval, header offset, block size and payload.", "quantifier": "every payload, block size, verify interval and header swap offset accepted by the option checks", "why_tests_cant": "All payloads and layouts.", "anchors": ["verify.c:populate_verify_io_u", "verify.c:fill_pattern_headers", "verify.c:populate_hdr", "verify.c:verify_io_u", "verify.c:verify_header"]}
{"id": "C22", "title": "Corruption of a verified block is reported", "statement": "If the data read back differs from the data written so that some header field, header checksum or payload checksum no longer matches, verification returns an error for that block.", "quantifier": "every payload, every corruption", "why_tests_cant": "All corruptions of all payloads.", "anchors": ["verify.c:verify_io_u", "verify.c:verify_header", "verify.c:verify_io_u_pattern", "verify.c:verify_io_u_crc32c"]}
{"id": "C23", "title": "Verify state files round-trip", "statement": "Loading a verify state that was saved restores the same issued-I/O count, in-flight list, failed list and random generator state; a state whose content does not match its checksum, version or length is rejected.", "quantifier": "every saved state, every file content", "why_tests_cant": "All states and all corrupt files.", "anchors": ["verify.c:get_all_io_list", "verify.c:write_thread_list_state", "verify.c:verify_load_state", "verify.c:verify_assign_state", "verify-state.h:thread_io_list"]}
{"id": "C24", "title": "After a crash only durable writes are verified", "statement": "With a loaded verify state, verification of write number n is attempted only if n is below the recorded limit, was not in flight and had not failed when the state was saved; skip decisions agree with membership in the recorded failed list.", "quantifier": "every saved state, every write number", "why_tests_cant": "Binary search and list logic over arbitrary states.", "anchors": ["verify.c:verify_state_should_stop", "verify.c:verify_state_should_skip"]}
{"id": "C25", "title": "Steady state detection evaluates the true window", "statement": "At every step the incrementally maintained sums equal the sums over the last window of measurements, so the slope and the maximum deviation are those of the least squares line and of the mean of that window.", "quantifier": "every sequence of measurements, every window length", "why_tests_cant": "Incremental updates over unbounded sequences.", "anchors": ["steadystate.c:steadystate_slope", "steadystate.c:steadystate_deviation"]}
{"id": "C26", "title": "Bloom filter has no false negatives", "statement": "A value that was added is always reported as present.", "quantifier": "every sequence of insertions, every filter size", "why_tests_cant": "Unbounded insert sequences and arbitrary hash values.", "anchors": ["lib/bloom.c:bloom_new", "lib/bloom.c:bloom_set"]}
{"id": "C27", "title": "Floating point values survive the wire encoding", "statement": "Encoding a finite double for the network or a saved state and decoding it yields the same value.", "quantifier": "every finite normal double", "why_tests_cant": "2^64 values.", "anchors": ["lib/ieee754.c:pack754", "lib/ieee754.c:unpack754", "lib/ieee754.h:fio_double_to_uint64"]}
{"id": "C28", "title": "Latency and depth distribution buckets count every I/O once", "statement": "Each completed I/O increments exactly one latency distribution bucket and the one whose documented range contains its latency; each submitted depth increments exactly one depth bucket.", "quantifier": "every latency value, every depth, every sequence of I/Os", "why_tests_cant": "All 64-bit values; totals over unbounded runs.", "anchors": ["io_u.c:io_u_mark_latency", "io_u.c:io_u_mark_lat_nsec", "io_u.c:io_u_mark_lat_usec", "io_u.c:io_u_mark_lat_msec", "io_u.c:io_u_mark_depth", "io_u.c:__io_u_mark_map"]}
{"id": "C29", "title": "Generated offsets stay inside the file region and are aligned", "statement": "Every I/O starts inside the region of its file (or current zone), is not empty and ends within the file; it ends within the region when sizes vary or the fixed size divides the region. Offsets and lengths are multiples of any unit dividing the alignment and sizes. A sequential job visits each direction's blocks in order and starts over only when asked to; a random job goes to exactly the block its generator answered, and random trim and write pairs cover the same bytes.", "quantifier": "every option combination in the modelled subset, every random stream, every step", "why_tests_cant": "Unbounded sequences and all option values.", "anchors": ["io_u.c:get_next_offset", "io_u.c:get_next_block", "io_u.c:get_next_seq_offset", "io_u.c:last_block", "io_u.c:get_next_buflen", "io_u.c:io_u_fits"]}
{"id": "C30", "title": "Chosen block sizes respect the configured range and alignment", "statement": "The length of an I/O is between the minimum and maximum block size of its direction, is a multiple of the minimum unless unaligned blocks were requested, and with a size split the entry is chosen according to the cumulative percentage.", "quantifier": "every random draw, every block size configuration", "why_tests_cant": "All draws and configurations.", "anchors": ["io_u.c:get_next_buflen", "io_u.c:io_u_fits"]}
{"id": "C31", "title": "Data direction mix converges to the requested percentages", "statement": "With a read/write mix of p percent, the direction chosen for each I/O keeps the issued split consistent with the requested percentage for the draw, and a flush request is inserted after exactly the configured number of writes.", "quantifier": "every p, every random stream, every length of run", "why_tests_cant": "Unbounded runs.", "anchors": ["io_u.c:get_rand_ddir", "io_u.c:get_rw_ddir", "io_u.c:rate_ddir", "io_u.c:should_fsync"]}
{"id": "C32", "title": "I/O log replay reproduces the logged I/O", "statement": "Reading back a log written by a job yields the same sequence of file, direction, offset and length.", "quantifier": "every sequence of logged I/Os", "why_tests_cant": "Unbounded logs.", "anchors": ["iolog.c:log_io_u", "iolog.c:read_iolog"]}
{"id": "C33", "title": "Client/server messages are delivered intact or rejected", "statement": "A payload of any length sent as fragments is reassembled to the same payload by the receiver, and a frame whose header or payload does not match its checksum is rejected.", "quantifier": "every payload, every opcode and tag", "why_tests_cant": "All payload lengths and contents.", "anchors": ["server.c:fio_net_send_cmd", "server.c:fio_net_recv_cmd", "server.c:fio_net_cmd_crc", "server.c:verify_convert_cmd"]}
{"id": "C34", "title": "Sorting of linked lists is a stable permutation", "statement": "Sorting a list yields a permutation of it ordered by the comparison function, with equal elements in their original order.", "quantifier": "every list, every total preorder", "why_tests_cant": "Unbounded lists.", "anchors": ["lib/flist_sort.c:flist_sort"]}
{"id": "C35", "title": "The ordered history tree stays ordered and balanced", "statement": "After any sequence of insertions and removals the tree contains exactly the inserted and not yet removed entries, in order, and its height is at most twice the logarithm of its size.", "quantifier": "every sequence of insertions and removals", "why_tests_cant": "Unbounded histories with many rebalancing cases.", "anchors": ["lib/rbtree.c:rb_insert_color", "lib/rbtree.c:rb_erase", "lib/rbtree.c:rb_first", "lib/rbtree.c:rb_next"]}
{"id": "C36", "title": "Offloaded work is executed exactly once under every schedule", "statement": "Every item enqueued on a work queue is handled exactly once by one worker, items given to one worker are handled in order, and a flush returns only when all items enqueued before it have been handled.", "quantifier": "every number of workers, every interleaving of workers and enqueuers", "why_tests_cant": "All schedules.", "anchors": ["workqueue.c:workqueue_enqueue", "workqueue.c:workqueue_flush", "workqueue.c:worker_thread", "workqueue.c:get_submit_worker"]}
{"id": "C37", "title": "Sequence lock readers never see a torn value", "statement": "A reader that accepts its snapshot has read values that all come from one completed write.", "quantifier": "every interleaving of one writer and any number of readers", "why_tests_cant": "All schedules.", "anchors": ["lib/seqlock.h:read_seqlock_begin", "lib/seqlock.h:read_seqlock_retry", "lib/seqlock.h:write_seqlock_begin", "lib/seqlock.h:write_seqlock_end"]}
{"id": "C38", "title": "File locks exclude conflicting jobs", "statement": "With exclusive file locking at most one job holds the lock of a file name at a time and a lock structure is released only when no job holds or waits for it.", "quantifier": "every interleaving of lock and unlock requests", "why_tests_cant": "All schedules.", "anchors": ["filelock.c:fio_lock_file", "filelock.c:fio_unlock_file", "filelock.c:fio_trylock_file"]}
{"id": "C39", "title": "Sequential-write zones are written only at their write pointer", "statement": "With zone mode, every write to a sequential zone starts at the zone's write pointer and does not cross its capacity, and the number of zones being written never exceeds the limit.", "quantifier": "every geometry and limit fio accepts, every sequence of reads, writes and trims of one job, every answer of the engine, every order of delivery and completion that keeps the order of the writes within a zone", "why_tests_cant": "Unbounded histories over arbitrary zone layouts.", "anchors": ["zbd.c:zbd_adjust_block", "zbd.c:__zbd_write_zone_get", "zbd.c:zbd_write_zone_put", "zbd.c:zbd_queue_io"]}
{"id": "C40", "title": "Numbers with unit suffixes mean what the documentation says", "statement": "A decimal number with a size suffix denotes that number times the documented multiplier, with the base selected by the kb_base option; time values use the documented unit multipliers.", "quantifier": "every number and suffix", "why_tests_cant": "All strings.", "anchors": ["parse.c:str_to_decimal", "parse.c:get_mult_bytes", "parse.c:get_mult_time"]}
{"id": "C41", "title": "Zero check accepts exactly all-zero buffers", "statement": "Verification of trimmed or write-zeroes ranges succeeds exactly when every byte is zero, and the reported offset of a failure is that of the first non-zero byte.", "quantifier": "every buffer of every length", "why_tests_cant": "All buffers.", "anchors": ["verify.c:mem_is_zero", "verify.c:mem_is_zero_slow", "verify.c:verify_zero"]}
{"id": "C42", "title": "JSON output escapes strings so that they read back unchanged", "statement": "Every string value written to the JSON report is quoted so that a JSON reader recovers the original string, and objects and arrays are printed with balanced, correctly separated structure.", "quantifier": "every string without control characters, every nesting of values", "why_tests_cant": "All strings and trees.", "anchors": ["json.c:strdup_escape", "json.c:json_print_object", "json.c:json_print_array"]}
{"id": "C43", "title": "Averaged logs account for every sample exactly once", "statement": "With log averaging, the samples of a log are divided into consecutive non-empty groups, one per log entry in order; each entry holds the mean of its group rounded to the nearest integer and/or its maximum as configured, and a latency log gets at most one entry per averaging period.", "quantifier": "every sequence of samples and sample times, every averaging period and mode", "why_tests_cant": "Unbounded sample sequences with arbitrary timing.", "anchors": ["stat.c:add_log_sample", "stat.c:__add_stat_to_log", "stat.c:finalize_logs"]}
{"id": "C44", "title": "Every I/O unit is in one place, and every I/O is submitted, resumed and completed as asked", "statement": "At every time each of the iodepth I/O units is exactly once in the free list, the requeue list, the engine or the job's hand, the depth counter equals the units out of the lists and never exceeds iodepth, and no assertion of the submission and completion paths fails. Each I/O started is submitted to the engine never twice at a time, a short transfer is resumed exactly where it stopped, in the file and in the buffer, and the I/O ends once: successfully only if all its bytes were moved or the end of the file is reached. The issue, byte and completion counters equal what the engine saw, and a quiesce returns with nothing in flight.", "quantifier": "every iodepth and batch setting, every sequence of requests, submissions, commits, reaps and quiesces, and every behaviour of the engine: completed at once, queued, busy, short, failed, completions in any order and batches", "why_tests_cant": "The number of interleavings of requeues, short transfers, errors and completion orders is unbounded, and engines hardly ever produce most of them.", "anchors": ["io_u.c:__get_io_u", "io_u.c:get_io_u", "io_u.c:put_io_u", "io_u.c:requeue_io_u", "io_u.c:io_completed", "io_u.c:io_u_queued_complete", "io_u.c:io_u_quiesce", "ioengines.c:td_io_queue", "ioengines.c:td_io_commit", "ioengines.c:td_io_getevents", "backend.c:io_queue_event"]}
{"id": "C45", "title": "Semaphores count, wake their waiters and time out as asked", "statement": "Every operation of a semaphore (down, timed down, trylock, up) takes effect at one instant between its call and its return: a down takes exactly one unit and only when one is there, a trylock fails only when none is, an up adds one; the value is never negative and equals the initial value plus ups minus downs. No operation is left hanging except a down that finds no unit: when all activity has ceased, nobody sleeps while a unit is available, provided the semaphore is used as a lock (value at most one) or has at most one waiter at a time. A timed down does not give up before its time.", "quantifier": "every number of threads, every initial value, every sequence of operations of every thread, every interleaving at the level of single statements, spurious wake-ups and clock readings", "why_tests_cant": "The interleavings of lock, wait, signal and timeout are unbounded and the losing ones are rare.", "anchors": ["fio_sem.c:fio_sem_down", "fio_sem.c:fio_sem_down_timeout", "fio_sem.c:fio_sem_down_trylock", "fio_sem.c:fio_sem_up", "fio_sem.c:sem_timed_out"]}
{"id": "C46", "title": "The random generators have their full period and bounded draws stay in bounds", "statement": "From every state whose components are above the documented minimum, the sequence of outputs of the 32-bit generator repeats with a period of exactly (2^31-1)(2^29-1)(2^28-1), and that of the 64-bit generator with exactly (2^63-1)(2^55-1)(2^52-1)(2^47-1)(2^41-1): no component ever becomes stuck at zero. Seeding yields such a state unless one of the intermediate values falls below the minimum. A bounded draw lies within the bounds that were asked for.", "quantifier": "every state, every seed, every number of steps, every bound", "why_tests_cant": "The periods are about 2^88 and 2^258; the bad seeds and the draws that round up are a vanishing fraction.", "anchors": ["lib/rand.h:__rand32", "lib/rand.h:__rand64", "lib/rand.h:rand32_upto", "lib/rand.h:rand64_upto", "lib/rand.h:rand_between", "lib/rand.h:__rand_0_1", "lib/rand.c:__init_rand32", "lib/rand.c:__init_rand64"]}
{"id": "C47", "title": "Rate limits hold, are caught up with and are not exceeded", "statement": "With a rate limit on a direction, whenever an I/O of that direction is let through, the bytes handed over in it so far are fewer than the rate allows up to the end of that microsecond (so the limit is exceeded by at most one I/O); with a limit in I/Os per second likewise for their number; I/Os refused as busy do not count. A direction that is behind its rate is let through at once, without sleeping, and a direction without a limit always. Otherwise the job sleeps exactly until the first direction it may use is due or the job ends, and switches direction only to one that is due earlier. Pauses (thinktime) are caught up with, or not, as asked. A job with a minimum rate is stopped only if it was too slow over a whole rate cycle, and always when it makes no progress over two.", "quantifier": "every configuration, every sequence of I/Os of any sizes and directions, busy results, pauses, every behaviour of the clock, of sleeps and of termination requests", "why_tests_cant": "The limit depends on accumulated rounding, on the race between the clock and the sleeps, and on counters near 2^64; runs are unbounded.", "anchors": ["backend.c:usec_for_io", "io_u.c:rate_ddir", "time.c:usec_sleep", "time.c:usec_spin", "backend.c:handle_thinktime", "backend.c:__check_min_rate", "init.c:__setup_rate", "ioengines.c:td_io_queue"]}
{"id": "C48", "title": "Write buffers have the size, randomness, compressible share and duplicates asked for", "statement": "A buffer of random data is exactly as long as asked, each of its words is the seed times the prime of its bucket times a power of the multiplier, buffers of different seeds differ in their first eight bytes, and the words of one bucket do not come back before 2^(62-k) rounds (2^k the power of two in seed times prime). A compressible buffer is filled completely; each of its pieces is random data followed by zeros or by the repeated pattern, and the latter part is the percentage asked for rounded up to a byte. With duplicates of the previous buffer, each buffer is the unique buffer whose number is the count of unique buffers drawn before it, so that there are at most that many different buffers and one; with 100 percent all are equal; with a working set each duplicate is the unique buffer of the page drawn. Not so: a segment of zero bytes loops forever; a compression chunk that does not divide the block makes the duplicates of a working set differ from every unique buffer; a working set of less than a page writes outside its array.", "quantifier": "every length, seed, number of buckets, percentage, segment, chunk, block size, pattern, generator state and sequence of draws", "why_tests_cant": "Equality of buffers holds across unbounded sequences of draws, and the period of the words is astronomically long.", "anchors": ["lib/rand.c:__fill_random_buf", "lib/rand.c:__fill_random_buf_small", "lib/rand.c:__fill_random_buf_percentage", "io_u.c:get_buf_state", "io_u.c:save_buf_state", "io_u.c:fill_io_buffer", "dedupe.c:init_dedupe_working_set_seeds"]}
{"id": "C49", "title": "The latency-target search finds the deepest queue that meets the target", "statement": "While a job searches for the queue depth that meets its latency target, the depth is always from one to the I/O depth of the job and never more I/Os than it are in flight. Missing the target lowers the depth (at depth one the job gives up), meeting it never lowers it; it changes only at the end of a window or, when all I/Os are to be in time, with a late one. A window is good exactly if the share of I/Os in time is the percentile or more, up to a relative error of 2^-51 and without error if all are in time. On a device that meets the target up to depth T the search ends at the smaller of T and the I/O depth after at most 3*log2(depth)+3 windows, and a job that is to go on settles and stays within two of T. Not so: if T is one below the I/O depth the search never ends; when all I/Os are to be in time, as many late I/Os in a row as the depth end the job whatever the lower depths would have done; a bad window after the final run has begun mixes the statistics of several depths.", "quantifier": "every configuration with depth below 2^31-4, every sequence of completions and checks, every threshold of the device", "why_tests_cant": "Convergence quantifies over all depths, thresholds and event sequences; the search that never ends needs one particular threshold per depth.", "anchors": ["io_u.c:__lat_target_failed", "io_u.c:lat_target_failed", "io_u.c:lat_target_init", "io_u.c:lat_target_reset", "io_u.c:lat_target_success", "io_u.c:lat_target_check", "io_u.c:queue_full"]}
{"id": "C50", "title": "Flow control keeps jobs in the proportion of their weights", "statement": "Jobs with the same flow_id get I/Os in proportion to their flow values. Whatever the interleaving of their checks, joins and leaves, the counter of the group is one more than the I/Os of its members, its weight is the sum of theirs, and the counter is one again when the last leaves. There is always a member that need not wait. With a fixed set of members no job is ever ahead of its share by more than one I/O, nor behind by more than twice the number of members (up to a relative error of 2^-50), and a job that is ahead waits while one that is not goes on. Not so: jobs are members from before they start, so while one of them does no I/O (it waits for the others to end) the others together get a bounded number of I/Os and then wait for ever.", "quantifier": "every number of jobs, all weights, all interleavings of the steps of the check, joins and leaves, runs of any length below 2^64 steps", "why_tests_cant": "The share bounds hold for all interleavings of read-compare-add sequences and all weights, with floating-point quotients; a test sees a few schedules.", "anchors": ["flow.c:flow_threshold_exceeded", "flow.c:flow_get", "flow.c:flow_put", "flow.c:flow_init_job", "flow.c:flow_exit_job"]}
{"id": "C51", "title": "Files are chosen, opened and closed as the file service type asks", "statement": "Whatever I/Os a job issues and completes: no assertion on files fails; a file has one reference per I/O in flight and one more while in use, and is closed exactly when the last one goes; no more files are open than openfiles; a file chosen is open, not about to be closed, not done and has a descriptor. Round robin takes the first file from its place on that is not done, and with all files open each gets exactly file_service_nr I/Os in its turn. A request is refused only at the limit, and with nothing in flight one of the next nr_files requests succeeds. Sequential service (all files may be open) serves a file only after all before it are done. Files done are counted exactly and the job ends when all are. Uniform draws of the 32-bit generator and skewed draws are files of the job. Not so: a uniform draw with tausworthe64 can be one past the last file; with a skewed distribution a file that ends while I/Os are in flight is drawn for ever; a request refused at the limit makes sequential service skip a file; a file read back for verification while the job waits is served although done and counted twice; an opening that fails half way leaves a file in use without descriptor; file_service_nr 0 means 2^32.", "quantifier": "every number of files, limit, service type, sequence of requests, completions and read-backs, every outcome of openings and draws", "why_tests_cant": "The invariants hold over all interleavings of requests and completions and all outcomes of openings; the violations need a file end with I/Os in flight at the limit of open files, or a draw of probability 2^-54.", "anchors": ["io_u.c:get_next_file_rr", "io_u.c:get_next_file_rand", "io_u.c:__get_next_file", "io_u.c:set_io_u_file", "io_u.c:__get_next_fileno_rand", "ioengines.c:td_io_open_file", "ioengines.c:td_io_close_file", "filesetup.c:get_file", "filesetup.c:put_file", "verify.c:get_next_verify"]}
{"id": "C52", "title": "Merged block traces have every record once and in order", "statement": "When several block traces are merged, each replayed once, the merged trace has exactly the records to replay of all traces, with times scaled by the percentage of their trace; records of one trace keep their order, and the merged trace is in the order of time if the traces are (scaling keeps that). Scale factors and numbers of rounds are either left to the default or given for every trace. Not so: with more than one round the last record read appears once too often (even if it was not to be replayed; if it has a payload the trace is then read from the middle of a record) and the length of a round is scaled twice; a trace with nothing to replay gives its scale and an offset to the next one; the counters of the cursors come from malloc and are never cleared.", "quantifier": "any number of traces of any length with any times and scale factors that do not overflow 64 bits", "why_tests_cant": "Order and completeness are over all numbers of traces, lengths and times including ties; results that depend on uninitialised memory look right in most runs.", "anchors": ["blktrace.c:merge_blktrace_iologs", "blktrace.c:find_earliest_io", "blktrace.c:merge_finish_file", "blktrace.c:read_trace", "blktrace.c:init_merge_param_list"]}
{"id": "C53", "title": "Numbers in reports mean what was measured", "statement": "The string of num2str, read with the usual meaning of digits, prefix and unit, is the given number (times base, and times 8 for bits) exactly if that has at most maxlen digits, and otherwise is wrong by at most half of the last digit shown (decimals add less than one unit of the next smaller prefix); with maxlen of at least 3 at least maxlen-1 significant digits are shown; the number is at most maxlen characters long, or one more for a power of ten. A whole number of bytes so shown is read back by the option parser as the number shown. bytes2str_simple is right to half a hundredth of the largest unit that leaves one, and fits in 12 bytes. Not so: two significant figures show 100 to 499 as 0k; base 1024 with decimal prefixes is taken as 1000 (the progress line with kb_base=1000); numbers too large for the largest prefix lose the prefix; bits wrap; strings with decimals or exa do not read back.", "quantifier": "all 64-bit numbers, lengths, units, both kinds of prefixes and bases that are powers of them", "why_tests_cant": "The errors appear at particular remainders, carries and lengths among 2^64 numbers.", "anchors": ["lib/num2str.c:num2str", "lib/num2str.c:bytes2str_simple", "eta.c:display_thread_status", "parse.c:str_to_decimal"]}
{"id": "C54", "title": "Zoned and sequence distributions access what they are told", "statement": "A random_distribution of zones is read as the percentages and sizes written, for each direction; sizes left out share evenly what is left. Of the 100 equally likely numbers each stands for exactly one zone, as many for a zone as its percentage says; the access is inside that zone and inside the file. With sizes in bytes the access is inside the zone's bytes, and a zone that ends beyond the file is an error. A sequence is read as written and repeated; with stride, an order of the first k blocks becomes an order of all: each block exactly once. Not so: a single zone without size always accesses the first block; a zone smaller than a block accesses its neighbour's, or the one after the file; blocks between zones may never be accessed; percentages are taken modulo 256; the manual's zoned_abs example is rejected; random_generator=lfsr ignores the size of the zone; the largest 64-bit random numbers access the block after the zone; a zone ending at block 2^32-1 is ignored; sequence elements wrap at 2^32.", "quantifier": "all lists of up to 256 zones, file sizes below 2^53 blocks, random numbers, sequences of up to 64 elements and numbers of accesses", "why_tests_cant": "Accesses outside a zone happen at particular combinations of zone, size and random number, and statistics over random accesses do not see a block too many or one never accessed.", "anchors": ["options.c:zone_split_ddir", "options.c:split_parse_ddir", "options.c:str_split_parse", "options.c:parse_sequence_distribution", "zone-dist.c:__td_zone_gen_index", "io_u.c:__get_next_rand_offset_zoned", "io_u.c:__get_next_rand_offset_zoned_abs", "io_u.c:__get_next_rand_offset_sequence"]}
{"id": "C55", "title": "Writes are placed where the job asks", "statement": "The list of placement identifiers is read as the values and ranges written, in ascending order; ranges the wrong way round, more than 16 bits and more than 128 identifiers are errors. For streams these are the identifiers used, for FDP the handles of the device at these indices, all of which must exist, by default all. In any sequence of I/Os the n-th write of a file gets the n-th identifier, cyclically, with round robin; with random every identifier has its even part of the random numbers; with a scheme the first entry that has the offset decides and 0 is for the others. Other I/Os are not placed. Not so: leading zeros mean octal, a missing start is 0, an empty element ends the list, numbers wrap at 2^32; identifiers given twice get two turns; a device without handles is not refused and the first write reads outside the table; a scheme has identifiers rather than indices; only 32 entries count.", "quantifier": "all lists of ranges, tables of handles, schemes, offsets, random numbers and sequences of reads and writes of any length", "why_tests_cant": "It takes special devices, and which identifier a write had is not visible in the data; limits and wrap-around appear at particular lists.", "anchors": ["options.c:str_fdp_pli_cb", "options.c:fio_fdp_cmp", "dataplacement.c:init_ruh_info", "dataplacement.c:init_ruh_scheme", "dataplacement.c:dp_fill_dspec_data"]}
{"id": "C56", "title": "Jobs are started once, when their options allow it, and all are waited for", "statement": "In every interleaving of the main process with the jobs: no job is created twice; a job with stonewall is created only when no other job is between its creation and being reaped; no job is created before a stonewall in front of it that has no other reason to wait; start_delay has passed and the jobs of wait_for have ended when a job is created; the counters are exact; the main process only ever waits for jobs that set themselves up, and when everything created has ended and the delays are over it creates the next job; when it is done and nothing was terminated every job has run and was reaped. Not so: a stonewall with start_delay does not hold back jobs behind it; a job that is terminated before its creation is taken off the count in every round, so that jobs that nobody terminated are never started, or the count wraps and the main process does not end.", "quantifier": "all numbers of jobs, options, and interleavings of the main process with jobs that get ready, end or are terminated, and the time, without a bound on their length", "why_tests_cant": "It depends on when jobs end relative to the loops of the main process, with several jobs in different states.", "anchors": ["backend.c:run_threads", "backend.c:reap_threads", "backend.c:waitee_running", "libfio.c:fio_terminate_threads"]}
{"id": "C57", "title": "Files get the sizes that were asked for", "statement": "size= is divided between the files of a job: all get size/nrfiles bytes, and the first ones a block more while the rest has one, so that less than a block of it is not used. Without size= and filesize= every file is used from its start offset to its end. With one filesize= every file ends there, with a range of whole blocks it ends within the range. A percentage gives whole blocks, never behind the end of the file and less than a block below the percentage. Regular files are made as large as what is used of them and never shorter. The bytes to do are io_size= or size= times loops=, and at least a block. A start offset behind the end of the file or the smallest size is an error. Not so: a size that is a multiple of the block size does not give files that are, and loses bytes; a range whose lower end is not a multiple gives files below it, even empty ones, or with an offset sizes that wrap; an offset behind a file whose size is in the range is not an error.", "quantifier": "all sizes, ranges, percentages, offsets, real sizes, kinds of file, random numbers and numbers of files", "why_tests_cant": "It depends on remainders of the size, the number of files, the block size, the offset and random numbers together.", "anchors": ["filesetup.c:setup_files", "filesetup.c:get_rand_file_size"]}
{"id": "C58", "title": "A job thinks when and for as long as it was told to", "statement": "A job waits after thinktime_iotime, or after thinktime_blocks if they are given or there is no thinktime_iotime, and only then. Over any number of calls there are never fewer than thinktime_blocks between two waits, and if it is asked after every block it waits after exactly every thinktime_blocks. It spins for thinktime_spin and sleeps for what is left, so that thinktime passes, and neither reaches beyond the runtime. With rate_ignore_thinktime what the rate allows in that time counts as done, up to a block; without it nothing does. Blocks since the last wait still count after the statistics are reset. Sleeping takes all of its time unless the job is terminated or nanosleep fails, in valid requests of less than two seconds. Not so: thinktime of 2^31 microseconds or more and no runtime sleeps practically for ever; once the runtime has passed all of thinktime is waited; if more than thinktime_blocks are done since the last wait when the statistics are reset, the job never waits again.", "quantifier": "all options, counters, times, numbers of calls, and lengths of sleeps", "why_tests_cant": "It depends on the clock, on requests that complete while the job waits, and on values beyond 2^31 that take an hour to wait for.", "anchors": ["backend.c:handle_thinktime", "libfio.c:update_thinktime_blocks_counter", "time.c:usec_sleep", "time.c:usec_spin"]}
{"id": "C59", "title": "The status line says what it should and fits", "statement": "The condensed letters of the jobs can be read back to the letter of every job, so no two states look the same, and with its NUL the string fits into the five characters that are reserved for each job, also before its last comma is removed. The letter of a job tells its runstate (but for initialized and setting up), whether a running job is random, and how a reaped one ended. The remaining time can be read back to the second, its units have no gaps, and it fits into the 128 characters of its callers. Not so: a letter does not tell a job that mixes with 100% reads from a reader; beyond 2^32 days the days are cut.", "quantifier": "any number of jobs below 2^32 and all letters, jobs and times", "why_tests_cant": "The buffers must suffice for all of the runs that the letters of thousands of jobs can form.", "anchors": ["eta.c:update_condensed_str", "eta.c:check_str_update", "eta.c:eta_to_str", "stat.h:__THREAD_RUNSTR_SZ"]}
