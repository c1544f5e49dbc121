# Formal model of fio in Rocq: design

## 1. Method

* Source of truth: `/repo` (axboe/fio, pinned), read as text. Nothing is extracted or executed.
* One component = up to four files in `rocq/theories/`:
  `XModel.v` (Gallina transcription of the C functions, each definition cites file and lines),
  `XSpec.v` (small independent specification), `XProofs.v` (lemmas), `XProps.v` (only the property
  theorems, `Print Assumptions`, and concrete `Example`s showing that the hypotheses are met).
* Machine integers are `Z` with explicit reduction (`u8/u16/u32/u64` in `CBase.v`); array indices and
  lengths are `nat` or `Z` as convenient; arrays are lists; a C `assert`, an out-of-bounds access or a
  division by zero is a distinct outcome (`None`) so that theorems also establish its absence.
* Random generators, clocks, I/O completion order and thread schedules are universally quantified
  inputs (oracles, lists of events, or transition relations).
* Floating point: where the C code uses `double`, the model uses exact real or rational arithmetic and
  says so; rounding is not modelled unless stated.
* When the faithful model violates the English property, the theorem is stated as `..._refuted`
  (an existential with a concrete witness) next to the strongest true restriction, and the finding is
  recorded in section 4.

Wrong programs (`seeded/LOG.jsonl`). An edit counts as found if the proofs do not build with it. `failed` names the first proof that
stops, often a lemma about the edited function; it does not show by itself that the statement of the theorem in `claim` is false of the
edited program, and later theorems are not tried. Edits that do not compile as a model are not logged. Until C57 the script that runs the
edits did not write down those that survived. Four of them were found in the output that was kept and were added: two led to stronger
theorems (C37, C40), two are the same program (C29, C40). Outputs that were not kept may have had others.

## 2. Trusted base

* Coq 8.16.1 kernel (and `coqchk`); `vm_compute`/`native` casts only where noted.
* Axioms: see section 5 (output of `Print Assumptions` for each property theorem).
* The correspondence between the Gallina model and the C text is by inspection; each definition has a
  citation.

## 3. Plan per property

| id | model | proof idea |
|----|-------|------------|
| C01-C03 | `Axmap*`: levels as lists of 64-bit words, set/isset/next_free/set_nr as in lib/axmap.c | invariant "bit at level k+1 set iff word at level k full"; refinement to a finite set |
| C04 | `RandMap*`: get_off_from_method + mark_random_map over the axmap model with an oracle stream | induction on the run using C01-C03 |
| C05 | `Lfsr*`: lfsr.c with tap table | companion matrix / polynomial arithmetic over GF(2), primitivity by certificates |
| C06 | `Fifo*` | ring-buffer refinement to a list, wrap mod 2^32 |
| C07 | `IouQueue*` | refinement to list stack / queue |
| C08-C09 | `Pattern*` | pointwise characterisation, induction on doubling copy; parser by structural recursion |
| C10-C11 | `Smalloc*` | bitmap = union of live ranges invariant |
| C12-C13 | `Plat*` | bit-length arithmetic; prefix sums of the histogram |
| C14 | `IoStat*` | real arithmetic identities, induction on samples |
| C43 | `IoStat*` | groups of samples per log entry, invariant on the averaging window |
| C15-C16 | `Time*`, `CpuClock*` | integer division arithmetic |
| C17-C18 | `Crc*` | bitwise LFSR step, table = 8 steps, linearity and injectivity of the step map |
| C19 | `Digest*` | generic block-buffer update; concatenation lemma |
| C20 | `Hist*`: log_io_piece, unlog_io_piece, trim_io_piece, completion, get_next_verify, get_next_trim, prune, over the heap tree of C35 with explicit allocation | simulation against a small set-of-writes specification, induction on the events; user-level consequences proved on the specification |
| C21-C22 | `Verify*`: populate_verify_io_u, verify_io_u and what they call, on byte buffers; the checksums are those of C17-C19, the pattern of C08, the zero check of C41 | byte-level layout of the header, swap is an involution, induction on the blocks of the buffer; what is accepted is stated on the bytes of each block, detection from the CRC theorems of C18 |
| C23-C24 | `VState*`: saving, loading and use of the verify state on byte buffers and files; `VStateLive*`: the in-flight tracking and the saving thread as interleaved atomic steps | concatenated images of the states; acceptance from the CRC theorems; binary search; invariant on slots, units and history, then on what the saver has read |
| C25 | `Steady*`: the ring buffers, the incremental sums modulo 2^64, the criteria over exact rationals | window invariant by induction on the measurements; normal equations and uniqueness of the least squares line |
| C26 | `Bloom*` | monotone bit set |
| C27 | `Ieee754*`: pack754 and unpack754 on m * 2^e, with rounding for any precision of long double and float expressions | loop invariants on the exponent, rounding keeps the fraction, bit fields |
| C28 | `Buckets*`: the marking functions, the accounting of td_io_queue and td_io_commit, merge and percentages | interval case analysis, invariant over all sequences of events, counting by induction on the events |
| C29 | `Offset*`: the choice of direction for trim and write, zones, offsets, sizes and the file's last positions as one step function; generators are inputs | invariant over all runs, parametrised by the alignment unit and the largest size; exact schedule of sequential jobs by induction |
| C30 | `Buflen*`: get_next_buflen with a list of draws, doubles as in FloatZ, and the percentages of bssplit_ddir | the loop over the entries follows a rule on cumulative shares; rounding error bound for the uniform draw |
| C31 | `Ddir*`: get_rw_ddir, rate_ddir with the clock as input, the counting of td_io_queue, verify backlog reads as events | the state agrees with the log of issued requests; invariant on rwmix_issues; counting by induction on the log |
| C32 | `Iolog*`: log_io_u, log_file, init_iolog_write, read_iolog for version 3, read_iolog_get; fgets and sscanf as in C11; the variables that read_iolog leaves uninitialised are parameters | text functions on lists of characters; round trip by induction on the events; invariant over lines for the options |
| C33 | `Net*`: fio_sendv_data, fio_send_data, fio_net_send_cmd, fio_send_cmd_ext_pdu, send_vec_entry, fio_recv_data, verify_convert_cmd, fio_net_recv_cmd; the connection is a reliable byte stream, what each writev and recv moves is a script | the specification is the wire format; inductions on scripts, fragments and frames; CRC theorems of C17/C18 for damage |
| C34 | `Flsort*` | merge sort with bins, stability |
| C35 | `Rb*` | heap of nodes represents a tree in a context (zipper); each rotation and recolouring shown on the heap, red-black invariants by induction on the path |
| C36 | `Workq*`: workqueue.c as a transition system (any number of workers; enqueue, flush and exit by one thread; spurious wake-ups), get_submit_worker as a function | given = handled ++ running ++ local ++ queued per worker; the idle flag implies nothing pending; ranking function for termination of flush and exit |
| C37 | `Seqlock*`: one writer, any number of readers, single loads and stores of a value of any number of words; the order in which the writer's stores become visible is a parameter (in order, as on x86 or behind a write barrier, or only the release store waits) | transition system; invariant relating memory to the completed updates, and per reader: while the unbounded count of increments has not moved, the words read are a prefix of the latest value |
| C38 | `Filelock*`: filelock.c as a transition system (any number of jobs, any interleaving of semaphore operations, any hash) | reference count = holders + users, semaphore = 1 - holders, as sums over the jobs; inductive invariant over `reach` |
| C39 | `Zbd*`: zbd_adjust_block, zbd_convert_to_write_zone, zbd_find_zone, zbd_queue_io, zbd_put_io, zbd_end_zone_io, zbd_write_zone_get/put, zbd_reset_zone, zbd_finish_zone, io_u_quiesce, zbd_do_io_u_trim, the tracking loop of zbd_setup_files; one job, its writes delivered and completed in any order that keeps the order within a zone; a failed assertion, an unlock without lock and a loop without end are outcomes | the specification is a zoned device that accepts or rejects each command; invariant relating fio's write pointers to the device's through the chain of writes in flight; weakest preconditions for the code, a measure for each loop |
| C40 | `Units*`: str_to_decimal, get_mult_bytes, get_mult_time, fio_get_kb_base, with strtoll as in C11 7.22.1.4 for bases 10 and 16; expressions in parentheses left out | string functions on lists of characters; the specification is the table of HOWTO.rst:504-590 as inductive relations; induction on the digits |
| C41 | `Zero*` | induction on shifted self comparison |
| C42 | `Json*`: strdup_escape, json_print_object/pair/array/value; printf's lld and f; the nesting level is handed down instead of the parent pointers | the specification is a reader after RFC 8259; induction on the tree that reading the printed text gives the value back |
| C44 | `Life*`: put_io_u, clear_io_u, requeue_io_u, queue_full, __get_io_u, get_io_u, td_io_queue, td_io_commit, io_queue_event, io_completed, io_u_sync_complete, ios_completed, io_u_queued_complete, td_io_getevents, io_u_quiesce; one job that submits its own I/O; offsets and the engine's answers are inputs; a failed assertion and a loop that waits are outcomes | the specification is an automaton per slot over the I/Os seen from outside (start, submission, bytes moved, end); invariant over the four places with the units in hand as a parameter, one lemma per move between places |
| C45 | `Sem*`: fio_sem_down, fio_sem_down_timeout, fio_sem_down_trylock, fio_sem_up, sem_timed_out, one step per statement; POSIX mutex and condition variable with spurious wake-ups and a free choice of whom to signal; two clocks | the specification is an atomic counting semaphore: the trace of calls, effects and returns is accepted by an automaton; invariant over all threads; a measure for the steps of threads that are awake |
| C46 | `Rand*`: __rand32, __rand64, __seed, __init_rand32, __init_rand64, rand32_upto, rand64_upto, rand_between, __rand_0_1; doubles as in `FloatZ` | each component is a linear map over GF(2); matrices as lists of columns, powers by squaring in the kernel; order exact by the factorisations of 2^k-1 proved for C05; the periods are coprime, so that of the sum is the product |
| C47 | `Rate*`: usec_for_io, rate_ddir, usec_spin, usec_sleep, handle_thinktime, __check_min_rate, __setup_rate; the outside world is a list of answers (clock readings, ends of sleeps, termination) consumed in order | due times as a function of the history of events, an invariant of runs; sleeps by induction over the answers; minimum rates by induction over the checks |
| C48 | `Fill*`: __fill_random_buf(_small, _percentage), get_buf_state, save_buf_state, fill_io_buffer, init_dedupe_working_set_seeds; draws are parameters, `dedupe_global` is left out | closed form of the words, order of the multiplier modulo powers of two (Orbit.v), pieces and pages as a function of the generator state, invariant of runs of buffers |
| C49 | `Lat*`: __lat_target_failed, lat_target_failed/init/reset/success/check, queue_full; completions while a job waits for its I/Os are later events; double division by RNE of the exact quotient | invariant of all runs; convergence by halving of the gap in three phases; error bounds of the verdict |
| C50 | `Flow*`: flow_threshold_exceeded as four interleaved steps, flow_get/put, flow_init_job/exit_job; one group, counters below 2^53; quotients by RNE with a sticky bit | invariant of all interleavings; lower share by summing the upper ones; monotonicity and error of the division |
| C51 | `Fsel*`: get_next_file_rr/rand, __get_next_file, set_io_u_file, td_io_open_file/close_file, get_file, put_file, the opening in get_next_verify; outcomes of openings, draws and fill_io_u are inputs | invariant of all reachable states by one lemma on local changes; the do-while loop equals a bounded scan; fairness by induction on turns; progress by the distance to an open file |
| C52 | `Merge*`: merge_blktrace_iologs, find_earliest_io, merge_finish_file, read_trace, write_trace, init_merge_param_list; traces as lists of records | interleaving relation closed under permutation and empty lists; induction on the records left; minimum of heads |
| C53 | `N2s*`: num2str, bytes2str_simple at the level of characters; the quotient is a double and printf rounds its exact value | own reading of number, prefix and unit; composition with the parser of C40; the fraction by exhausting its 2024 remainders and two lengths (nothing else occurs) |
| C54 | `Zd*`: the parsing of zoned, zoned_abs and sequence at the level of characters, the table of 100 entries, the choice of the block with its doubles | inductions over the list of zones with running sums; the bound of the product of doubles from `rne53_error`; permutations for stride |
| C55 | `Place*`: plids at the level of characters (strtoull with base 0), the table of a file, the three ways to choose | inductions over the list of ranges and over the sequence of I/Os; C46 for the random choice |
| C56 | `Jobs*`: run_threads and reap_threads as a function on states, one round of a loop at a time; jobs, terminations and time as events in between | an invariant of the counters, of the walls passed in a round and of the end; ranks of run states; deterministic rounds for progress |
| C57 | `Fsz*`: the size computation of setup_files, with random sizes as rounded doubles | induction over the files; remainders; the bound of scaled random numbers from C54 |
| C58 | `Think*`: handle_thinktime with the clock, spinning and sleeping as inputs; usec_sleep and usec_spin apart. C47 has a model of its own of these; when a job waits, how long, the cut at the end, sleeping and `runtime_left` are proved there too. New here are the counts over all calls, `left` as an int, and the reset | case analysis of machine integers; an invariant on the blocks since the last wait by induction over the calls; induction over the naps |
| C59 | `Eta*`: update_condensed_str, check_str_update, eta_to_str at the level of characters | induction over the letters against a reader of the string; the digits of n are at most n; what each letter tells |

## 4. Findings

Differences between the code and what a user may assume, found while modelling. "T" names the theorem
that exhibits it (a `_refuted` theorem has a concrete witness).

* **axmap** (C01-C03): a query at exactly the map size n reads past the last word when n is a multiple of
  64; a run that overhangs the end of the map is not clipped. The theorems are about indices inside the map.
* **random map** (C04): the 64-bit draw can select block n for the top 2^10 draws of the generator (the float
  product rounds up); the map is then read out of bounds. bsrange with a partial tail block marks blocks
  outside the map.
* **LFSR** (C05): lfsr_init refuses seeds whose low bits are all ones (1 in 8 for fewer than 8 blocks); file
  setup then fails the job. Reset with a non-zero spin is not covered.
* **fifo** (C06): correct only for power-of-two sizes.
* **io_u ring** (C07): the overflow check compares the unreduced head + 1, so overflow is not detected.
* **patterns** (C08-C09): a decimal number followed at distance >= 24 by a "0x" is rejected; `""` and
  `0x0x12` abort on an assert; `0xx12` leaves an uninitialised byte.
* **smalloc** (C10-C11): a fitting free run can be missed (T C11_fragmented_refuted: freeing an allocation
  and requesting the same size again fails); ffz can be called on an all-ones word, and whether the request
  succeeds depends on its undefined value (T C11_ffz_refuted; safety holds for every value); pool sizes within
  32 MiB of 4 GiB wrap the mmap size (T C10_pool_layout_refuted).
* **statistics** (C14): merging multiplies the two sample counts in 64 bits, so two jobs with 2^32 samples each
  lose their between-job deviation (T C14_merge_overflow_refuted); the reset at the end of ramp_time clears the
  sync count but not the sync latency statistics (T C14_ramp_sync_refuted).
* **crc32c** (C17): the SSE4.2 path keeps the word count in 32 bits; at 2^35 bytes nothing is checksummed
  (T C17_crc32c_hw_wrap_refuted).
* **digests** (C19): "sha256" appends the length in host byte order, counts bytes modulo 2^32 and stores one byte
  per state word, so it is not SHA-256 (T C19_sha256_published_refuted); sha512 loses the carry of a single update
  of 2^29 bytes or more (T C19_sha512_long_chunk_refuted); sha256/sha3 updates within a block of 2^32 bytes wrap.
* **write history** (C20): a failing write that a later write had already replaced is subtracted twice from the
  history length (T C20_len_refuted); a failing write queued for trimming stays on the trim list after it is freed
  (T C20_trim_failed_refuted); trim_verify_zero=0 frees pieces in flight (T C20_trim_inflight_refuted); in list
  mode one unfinished piece hides all later ones from the verifier (T C20_list_blocked). By reading: a short
  synchronous write is requeued and loses its piece, so the piece stays in flight for ever; synchronous write
  errors with continue_on_error do not unlog the piece; both lead to the blocked list.
* **bloom filter** (C26): fio-dedupe sizes its filter to zero entries for a file smaller than one block, and the
  first lookup divides by zero (T C26_empty_filter_refuted).
* **list sort** (C34): btrace2fio's comparison truncates a 64-bit difference to int, so a process with 2^32 requests
  is listed after one with a single request (T C34_btrace_truncation_refuted).
* **block verification** (C21-C22): without verify_fatal a payload error in a block is forgotten when a later block of
  the same I/O is intact, so only the last block of an I/O counts (T C22_damage_missed_refuted); a bad header under
  verify_fatal returns before the job is told to stop (T C22_fatal_header_refuted); the check of verify_offset
  uses 48 bytes for the header although the checksum follows it, so offsets are accepted that make the copies overlap
  or leave the block (T C21_offset_refuted); the interval divides the smallest and largest block size only, and other
  sizes read past the end of the I/O (T C21_block_size_refuted). The type stored in the header is not compared with the
  configured one: with a checksum type the payload offset is taken from the stored type (hypothesis types_known).
* **verify state** (C23-C24): a job name of 64 characters or more is cut in the saved state but not on load, so the state is
  not found (T C23_long_name_refuted); the entry count of a file with a correct checksum is not compared with its length
  (T C23_short_body_refuted); a job without files (opendir on an empty directory) overruns the buffer
  (T C23_no_files_refuted). The saving thread reads the in-flight slots before the issued count, so a write issued in between is
  taken for complete (T C24_issue_race_refuted), contrary to the comment at backend.c:1038; a failure is visible only after its slot
  was released (T C24_fail_race_refuted); a write that a synchronous engine fails is never recorded
  (T C24_sync_error_refuted); with verify_policy fsynced a write still in flight when the flush is submitted counts as flushed
  (T C24_fsync_inflight_refuted). By reading: the failed list may grow between sizing and filling the buffer.
* **steady state** (C25): a window of more than 1024 intervals overflows an int in the setup sums (T C25_long_window_refuted);
  a late check multiplies by the elapsed time where it should divide (T C25_rate_late_refuted); the square of the check interval
  wraps in 32 bits (T C25_interval_refuted). The percent slope uses the mean rounded down, so a mean below 1 gives no reading. By
  reading: server.c copies ss_dur entries although the arrays have ss_dur / interval entries.
* **wire doubles** (C27): an infinity makes pack754 loop for ever and a NaN is undefined (T C27_infinity_refuted); the percent criterion of
  the steady state is infinite or a NaN when the mean is below 1, and the server encodes it. Subnormal numbers are lost
  (T C27_subnormal_refuted).
* **distributions** (C28): the depth percentages divide by reads, writes and trims while the depths also count syncs, so one fsync per
  write prints 200% (T C28_depth_percent_refuted); the first microsecond entry of the terse output divides by a zero total for a job
  without I/O (T C28_terse_empty_refuted).
* **block sizes** (C30): sizes of a split that are not multiples of the smallest one are rounded down, so "4k/50:6k/50" never issues 6k
  (T C30_split_rounded_refuted); an entry left without a share still sets the smallest size, and at the end of the region the loop
  never ends (T C30_livelock_refuted); percentages above 100 with one entry left to fill are accepted and the entry's share wraps
  (T C30_over_100_refuted).
* **directions** (C31): a read from the verify backlog between the n-th write and the next request makes the flush disappear
  (T C31_backlog_refuted); a backlog read answered with FIO_Q_BUSY is subtracted from io_issues without having been added
  (T C31_backlog_busy_refuted); set_rw_ddir overwrites DDIR_TIMEOUT for trim and write jobs (T C31_timeout_refuted); where fsync and
  fdatasync coincide only the fsync is issued (Example C31_ex_both).
* **sequence lock** (C37): write_seqlock_begin makes the number odd with a plain store and no write barrier behind it, so on a machine
  that reorders stores a reader can accept a torn time stamp (T C37_unordered_stores_refuted); the number has 32 bits, so 2^31 updates
  during one read go unnoticed (T C37_wrapped_sequence_refuted).
* **units** (C40): the documented ki, mi, gi, ti, pi are read as k, m, g, t, p (T C40_short_iec_read_as_si, C40_short_iec_refuted);
  the documented sec is read as microseconds (T C40_sec_read_as_microseconds, C40_sec_refuted), as is every unknown time word, e.g. min
  (T C40_unknown_time_word); a hexadecimal number of seconds is read as microseconds (T C40_hexadecimal_seconds_refuted) and a suffix
  behind a hexadecimal number is ignored (T C40_hexadecimal_suffix_refuted); a product above the largest long long wraps
  (T C40_wrapped_product_refuted); a too small number is limited and accepted (T C40_limited_negative_refuted); a stale errno makes the
  largest number an error (T C40_stale_errno_refuted).
* **JSON** (C42): names are printed without escapes (T C42_name_refuted), control characters are not escaped
  (T C42_control_character_refuted), and infinities and NaNs are printed as inf and nan (T C42_infinity_refuted,
  C42_not_a_number_refuted); a JSON reader refuses the report in each case.
* **client and server** (C33): fio_sendv_data advances over the entries of its vector without lowering the count, so a writev that stops
  behind the header makes the next one read an entry behind the array (T C33_vector_overrun_refuted); an empty buffer inside a vector
  ends the command early for the receiver (T C33_empty_part_refuted); the length field of a text or job command is not checked before
  the terminating zero is written (T C33_text_length_refuted); fragments with different tags are joined (T C33_mixed_tags_refuted).
* **I/O log** (C32): sync_file_range and syncfs are written to the log and refused when read (T C32_range_sync_refuted); a length of
  4 GiB or more is cut to 32 bits (T C32_long_io_refuted); a file name with a blank makes the log unreadable (T C32_blank_name_refuted);
  the log of a run that only synced is refused (T C32_only_syncs_refuted); with `directory` set, names are prefixed once more when
  added but not when used, and the replay reads td->files[-1] (T C32_directory_refuted); the lines that add, open and close files
  count the variable `bytes` of an earlier line, or no line at all, into the size of the job (T C32_total_refuted). By reading, not
  modelled: `bytes > td->o.max_bs[rw]` (iolog.c:611) indexes an array of three with DDIR_SYNC (3) for a logged sync.
* **file locks** (C38): fio_trylock_file can block: between the test for a single reference and fio_sem_down another job may take the
  lock (T C38_trylock_blocks_refuted); two names with one 32-bit hash share a lock, so one job that locks both waits for itself for ever
  (T C38_collision_refuted). By reading: an unlock by a job that does not hold the lock is not detected.
* **zones** (C39): a write to a conventional zone that is longer than a zone can reach
  a sequential zone behind the next one, because only the next zone is checked
  (`C39_long_conventional_refuted`). A trim of a zone with writes in flight resets the
  zone under them (`C39_trim_in_flight_refuted`). A write that fills a zone and is first
  answered with `FIO_Q_BUSY` leaves its zone in the table of write zones for good, which
  can end the job early (`C39_busy_leaks_slot_refuted`). The counter of zones per job is
  decreased for the wrong job and wraps (`C39_job_counter_refuted`). A random trim can
  reach `assert(zb->has_wp)` with a conventional zone (`C39_trim_assert_refuted`). After
  a zone finish a read beyond the capacity is accepted
  (`C39_read_beyond_capacity_refuted`). With an empty table the search starts from a
  stale entry and may give up although a zone is writable (`C39_stale_start_refuted`). A
  write at the end of a conventional zone may be cut to length 0
  (`C39_empty_write_refuted`). Zones open outside the job's range are not counted
  (`C39_outside_range_refuted`).
* **life of an I/O unit** (C44): reaping commits the queued I/Os in the engine without
  moving `io_u_queued` to `io_u_in_flight`, so the latter wraps; with iodepth=4,
  iodepth_batch=3 and iodepth_batch_complete_min=4 `io_u_quiesce` (thinktime, log
  regrowth, zones) never returns (`C44_quiesce_refuted`). A completion without any byte
  from an asynchronous engine is a success (`C44_nothing_moved_refuted`). With short
  transfers `io_bytes` counts the last piece only, `io_issue_bytes`, which ends the job
  at its size, counts the rest again, and `io_issues` counts one or two depending on the
  engine (`C44_bytes_refuted`, `C44_issue_bytes_refuted`, `C44_issues_refuted`). A busy
  engine takes back an issue of a verify read that was never counted
  (`C44_busy_verify_refuted`).
* **semaphores** (C45): a signal is lost when there are two waiters. `fio_sem_up` signals only if the value is zero, so of two ups in a row the
  second does not signal, and the second of two sleepers sleeps on with a unit available (`C45_lost_wakeup_refuted`). As a lock, or with one
  waiter at a time, which is how fio uses its semaphores, no wake-up is lost. The second look at the time in `fio_sem_down_timeout` compares the
  time of day with the monotonic clock where the condition variable uses that clock: it does not catch an early timeout
  (`C45_double_check_refuted`), and with the time of day behind the time since boot it drops true ones (`C45_timeout_dropped_refuted`).
* **random generators** (C46): exactly four 32-bit seeds (3660656, 3660657, 3475163494, 4051026189) leave one component of `__init_rand32` at zero for
  ever, because `__seed` adds the minimum to a zero and accepts the minimum itself (`C46_seeds32_refuted`); `__init_rand64` uses the minima 1, 7,
  15, 33, 49 where its masks need 2, 512, 4096, 2^17, 2^23 (`C46_seeds64_refuted`). `rand64_upto` can return one more than its bound, since numbers
  from 2^64 - 2^10 on round up to 2^64 (`C46_above_refuted`); with the whole range as bounds `end++` wraps and every draw is zero
  (`C46_whole_refuted`); `rand32_upto` converts to `int` values that do not fit from a bound of 2^31 on (`C46_int_refuted`).
* **rate limits** (C47): a signal during the sleep of `rate_ddir` lets an I/O through ahead of its time (`C47_signal_refuted`), and so does a
  sleep cut at the end of the job when the clock then shows that very microsecond (`C47_deadline_refuted`, `now > timeout` instead of `>=`).
  With bssplit and `rate_iops` the delay is rounded down to whole microseconds: 600000 IOPS become a million, more than a million are unlimited
  (`C47_bssplit_refuted`), and a busy result costs a slot. With `rate_process=poisson`, a rate below one block a second, or a mixed job limited
  in one direction only, divides by zero (`C47_poisson_refuted`). A pause that starts after the end of the job is not cut, since the unsigned
  `runtime_left` wraps (`C47_think_cut_refuted`). Given both `rate_min` and `rate_iops_min`, only the first is checked (`C47_min_both_refuted`).
* **buffers** (C48): `__fill_random_buf_percentage` never ends with a segment of zero bytes (no caller asks for it) (`C48_share_endless_refuted`);
  dedupe.c:32-33 rounds the seeds per page down where `fill_io_buffer` rounds the pieces up, so with a `compress_chunk` that does not
  divide the block the duplicates of a working set are no duplicates (`C48_set_refuted`, `ex_set_refuted`); a working set of less than one
  page writes the first element of an empty array, dedupe.c:39-46 (`C48_set_empty_refuted`).
* **latency target** (C49): io_u.c:1686-1689 takes a failed depth equal to `iodepth` for no failure yet, so if the target is met up to one
  below `iodepth` the search goes up and down for ever (`C49_swings_refuted`); with the default percentile of 100 the completions that
  `io_u_quiesce` waits for in `__lat_target_failed` call it again, so a queue of late I/Os takes the depth down to one and ends the job,
  which the comment at io_u.c:1619-1622 means to prevent (`C49_storm_refuted`); `latency_end_run` is not cleared by a bad window, so the
  final statistics may be those of several depths (`C49_mixed_refuted`).
* **flow** (C50): jobs join their group when they are parsed (init.c:1696), so a member that has not started yet (for instance behind a
  `stonewall`) counts with its weight; the others get a bounded number of I/Os and stall for ever, and the run never ends
  (C50_absent_refuted).
* **file service** (C51): (1) io_u.c:1376-1383 with `random_generator=tausworthe64` can draw one past the last file, since a draw near
  2^64 rounds up to it (C51_draw64_refuted). (2) With zipf, pareto or gauss service a file whose end is reached while I/Os are in flight
  stays open and closing; if all files are in that state get_next_file_rand loops for ever, since only the caller reaps I/Os
  (C51_skewed_refuted). (3) get_next_file_rr moves on before it returns -EBUSY, so with `openfiles` below `nrfiles` sequential service
  skips a file and comes back to it later (C51_order_refuted). (4) After -EBUSY `file_service_file` still is the file that is done; if
  get_next_verify reopens it, it is served again and counted as done twice, and the job can end without serving the others
  (C51_verify_refuted). (5) The error exit of td_io_open_file (ioengines.c:636-641) closes the descriptor but leaves the file marked
  open, counted and referenced (C51_half_refuted). (6) `file_service_type=roundrobin:0` serves a file 2^32 times (C51_zero_refuted).
* **merging traces** (C52): (1) `iter` and `length` of the cursors (blktrace.c:709) are used without being initialised
  (C52_memory_refuted). (2) After the end of a round merge_finish_file rewinds but no record is read, so the last record read is written
  again (C52_rounds_refuted), even one that is to be skipped (C52_skipped_refuted); its payload is then skipped at the start of the file
  (C52_payload_refuted). (3) `length` is a scaled time and is scaled again (C52_twice_refuted). (4) A trace without QUEUE records leaves
  its slot, with its scale and a non-zero `iter`, to the next trace (C52_empty_refuted).
* **numbers in reports** (C53): (1) with `significant_figures` 1 or 2 most numbers of three digits are shown as `0k` or `1k`
  (C53_small_refuted). (2) num2str counts how often `base` can be divided by 1000 or 1024, so 1024 with decimal prefixes is the same as
  1000: with kb_base=1000 the progress line shows rates 2.4 % too low, they are KiB/s (eta.c:332, 662; C53_kib_refuted). (3) A carry
  makes the number longer than `maxlen` (C53_length_refuted). (4) When the prefixes run out the number is shown without any
  (C53_huge_refuted), and the multiplication by 8 for bits wraps (C53_bits_refuted). (5) `12.1KiB` as an option value is 12 bytes
  (C53_reads_back_refuted).
* **zones and sequences** (C54): (1) a single zone without a size gets size 0, not 100: the code sets the sum to 100 before it
  computes what is left (options.c:1248-1268; C54_single_refuted). (2) A zone of less than one block accesses the block after it, at the
  end of the file one outside (C54_small_refuted). (3) Rounding down start and length separately leaves blocks that no zone accesses
  (C54_gap_refuted). (4) Percentages are cut to 8 bits after parsing, negative sizes become 100 (C54_nonsense_refuted). (5) The
  `zoned_abs=` example in HOWTO.rst:1620 needs a colon (C54_manual_refuted). (6) random_generator=lfsr takes no notice of the bound, so
  zones do not work with it (C54_lfsr_refuted). (7) 64-bit random numbers above 2^64-2^10 round to 2^64 (C54_last_refuted). (8) -1U is
  compared with block numbers (C54_marker_refuted). (9) Sequence elements go through atoi (C54_wrap_refuted).
* **data placement** (C55): (1) the text of plids is read leniently: octal, `-2` as 0, `1-9-3` as 1-3, an empty element ends the
  list, `7-4294967295` as 7 (C55_text_refuted). (2) Duplicates are kept (C55_twice_refuted). (3) A device that reports no handles gives
  an empty table, and both round robin and random read outside it (dataplacement.c:231, 255; C55_empty_refuted). (4) HOWTO.rst:2764
  speaks of indices for dp_scheme, the code uses the number as the identifier (C55_index_refuted). (5) Scheme entries after the 32nd are
  dropped with a message (C55_entries_refuted).
* **starting jobs** (C56): (1) run_threads takes a job that was terminated before its creation off `todo` but leaves it in
  TD_NOT_CREATED, and does so again in the next round (backend.c:2756-2767). With exit_what=group and a delayed job of another group,
  that job is never started (C56_terminated_refuted), or `todo` wraps and fio does not end (C56_wrap_refuted). (2) start_delay is looked
  at before stonewall, so a delayed stonewall lets the jobs behind it start (C56_delayed_wall_refuted).
* **file sizes** (C57): (1) the comment of setup_files wants the first files bigger if the size does not divide nicely, but the rest of
  size / nr_files is less than nr_files bytes, so with no more files than bytes in a block no file ever gets a block more (C57_equal):
  10 MiB in three files gives files that are not whole blocks and loses a byte (C57_blocks_refuted). (2) get_rand_file_size rounds down
  after adding the lower end (filesetup.c:444-446), so it goes below the range, to 0 (C57_range_refuted), and with an offset io_size wraps
  (C57_wrap_refuted). (3) The last branch does not look at the offset (filesetup.c:1296-1297, C57_offset_refuted).
* **thinktime** (C58): (1) `left` is an int (backend.c:920), so thinktime=1h without a runtime becomes a negative number and then an
  unsigned long: the job sleeps until it is terminated (C58_hour_refuted). (2) `runtime_left` is unsigned and wraps once the runtime has
  passed, for instance in io_u_quiesce, so all of thinktime is waited (backend.c:951-953, C58_late_refuted). (3) The blocks that complete
  in io_u_quiesce are not counted as waited for (`last_thinktime_blocks = b`). If more than thinktime_blocks of them are there when the
  statistics are reset after ramp_time, the sum in backend.c:944 is negative, is compared as unsigned, and the job never thinks again
  (C58_never_again for all such states, C58_reset_refuted).
* **status line** (C59): rw jobs with rwmixread=100 look like readers (C59_mix_refuted); more than 2^32 days are cut (C59_days_refuted).
* **offsets** (C29): with a fixed block size the last I/O of a region that is no multiple of it crosses the end of the region, because
  io_u_fits is consulted only for a range of sizes (T C29_fixed_inside_refuted); a holed job (`rw=read:N`) with an offset restarts at
  file_offset counted twice (T C29_holed_wrap_refuted); a backward job with an offset begins at io_size instead of offset + io_size
  (T C29_backward_start_refuted); strided zones leave offset + size when the file is larger (T C29_zone_region_refuted) and a range of
  sizes crosses the end of the zone (T C29_zone_range_refuted); last_block underflows for a region smaller than min_bs - blockalign
  (T C29_last_block_refuted).
* **time** (C15): utime_since may round up by less than a microsecond.

## 5. Assumptions per theorem

Every theorem listed in MANIFEST.json is reported "Closed under the global context" by `Print Assumptions`
(printed at the end of each `*Props.v` file): no axiom at all, neither from the standard library nor elsewhere.
