{
 "claims": [
  {
   "property": "C01",
   "status": "proved",
   "theorems": [
    "C01_ring_buf_is_bounded_fifo"
   ],
   "note": "every history on every block; observational equality with the bounded FIFO"
  },
  {
   "property": "C02",
   "status": "proved",
   "theorems": [
    "C02_ring_buf_create_with_mem_accepts",
    "C02_ring_buf_create"
   ],
   "note": "acceptance condition exact; no history accesses outside the block (Ub excluded)"
  },
  {
   "property": "C03",
   "status": "proved",
   "theorems": [
    "C03_RingBuffer_is_fifo_any_counters",
    "C03_RingBuffer_with_mem_is_fifo"
   ],
   "note": "FIFO refinement from any counter positions, including across the 32-bit wrap"
  },
  {
   "property": "C04",
   "status": "proved",
   "theorems": [
    "C04_RingBuffer_create_capacity",
    "C04_RingBuffer_create_refused",
    "C04_RingBuffer_create_large_refuted",
    "C04_RingBuffer_with_mem_refused",
    "C04_RingBuffer_with_mem_large_refuted"
   ],
   "note": "total over every 32-bit request: exact capacity, refusal, or the undefined shift (each a theorem)"
  },
  {
   "property": "C05",
   "status": "proved",
   "theorems": [
    "C05_msg_queue_is_message_fifo"
   ],
   "note": "every history of push/pop/next_len/clear refines a bounded queue of whole messages"
  },
  {
   "property": "C06",
   "status": "proved",
   "theorems": [
    "C06_small_buffer_then_retry",
    "C06_pop_reports_size_refuted"
   ],
   "note": "the size variable on success is the refuted documentation"
  },
  {
   "property": "C07",
   "status": "proved",
   "theorems": [
    "C07_spsc_no_fault",
    "C07_spsc_fifo",
    "C07_spsc_every_answer",
    "C07_spsc_push_wait_free",
    "C07_spsc_pop_wait_free"
   ],
   "note": "byte-by-byte interleaving, every schedule, message and buffer size, index wrap included; sequentially consistent memory (the indices are plain variables in the C code: a data race in ISO C)"
  },
  {
   "property": "C08",
   "status": "proved",
   "theorems": [
    "C08_fixed_queue_is_fifo",
    "C08_documented_capacity_refuted",
    "C08_queue_accepting_nothing_refuted"
   ],
   "note": "exact capacity 2^k/one; the documented capacity is refuted for every size"
  },
  {
   "property": "C09",
   "status": "proved",
   "theorems": [
    "C09_autocover_exact",
    "C09_recent_answers",
    "C09_autocover_recent_positions",
    "C09_covered_position_refuted",
    "C09_end_position_refuted",
    "C09_oversized_write_aborts"
   ],
   "note": "total: exact answer for every position (C09_autocover_exact); the documented reading holds on the last cap-1 positions; aliasing, end position and oversized writes shown"
  },
  {
   "property": "C10",
   "status": "proved",
   "theorems": [
    "C10_array_is_sequence",
    "C10_append_fails_only_without_memory",
    "C10_index_checked",
    "C10_size_overflow_refuted",
    "C10_append_value_wide_refuted"
   ],
   "note": "every history, element size and failure pattern when the initial byte size fits in size_t; overflowed sizes and append_value on wide elements refuted"
  },
  {
   "property": "C11",
   "status": "proved",
   "theorems": [
    "C11_base64_round_trip",
    "C11_base64_decodes_rfc4648",
    "C11_short_input_refuted"
   ],
   "note": "encode = RFC 4648 text and decode inverts it for every input of >= 2 bytes; inputs of 0 and 1 byte are refused by the encoder (refuted part)"
  },
  {
   "property": "C12",
   "status": "proved",
   "theorems": [
    "C12_encode_buf_size_exact",
    "C12_decode_buf_size_sufficient"
   ],
   "note": "every text, valid or not"
  },
  {
   "property": "C13",
   "status": "proved",
   "theorems": [
    "C13_hashmap_is_finite_map"
   ],
   "note": "every history, hash function and pattern of allocation failures; a NULL value is not distinguishable from an absent key, as in the API"
  },
  {
   "property": "C14",
   "status": "proved",
   "theorems": [
    "C14_frees_exactly_once"
   ],
   "note": "multiset equality of keys/values taken over and freed; callbacks only under the lock. Note: put of the same value pointer again frees it while stored, and the pointer returned by put/remove is already freed when a value callback is given"
  },
  {
   "property": "C15",
   "status": "proved",
   "theorems": [
    "C15_foreach_visits_each_once",
    "C15_foreach_any_callback",
    "C15_stop_leaves_only_the_bucket_refuted"
   ],
   "note": "every entry visited exactly once; the documented stop is refuted"
  },
  {
   "property": "C16",
   "status": "proved",
   "theorems": [
    "C16_list_is_sequence",
    "C16_foreach",
    "C16_foreach_remove_current",
    "C16_foreach_remove_next_refuted"
   ],
   "note": "every history, heap and allocator; foreach with removal of the visited element proved; list.h's claim that any mutation inside the foreach callback is safe is refuted (use after free)"
  },
  {
   "property": "C17",
   "status": "proved",
   "theorems": [
    "C17_frees_exactly_once"
   ],
   "note": "multiset equality, and the heap after list_free equals the heap before list_new"
  },
  {
   "property": "C18",
   "status": "proved",
   "theorems": [
    "C18_is_power_of_two",
    "C18_roundup_pow_of_two",
    "C18_rounddown_pow_of_two",
    "C18_rounddown_large_refuted"
   ],
   "note": "all 32-bit values; 1 is not recognised as a power of two and rounddown above 2^31 gives 0 (refuted parts)"
  },
  {
   "property": "C19",
   "status": "proved",
   "theorems": [
    "C19_strlcpy",
    "C19_strlcat",
    "C19_strlcat_unterminated",
    "C19_truncation_exact"
   ],
   "note": "every source, destination and size including 0"
  },
  {
   "property": "C20",
   "status": "proved",
   "theorems": [
    "C20_strreplace",
    "C20_empty_pattern_never_returns"
   ],
   "note": "non-empty pattern, as stated; an empty pattern never returns (separate theorem)"
  },
  {
   "property": "C21",
   "status": "proved",
   "theorems": [
    "C21_strsplit",
    "C21_strtrim",
    "C21_strnutf8len",
    "C21_strutf8len",
    "C21_strnutf8len_overread_refuted"
   ],
   "note": "strsplit/strtrim/UTF-8 counts exact on terminated strings; the count reads one byte past an unterminated buffer (refuted for that reading)"
  },
  {
   "property": "C22",
   "status": "proved",
   "theorems": [
    "C22_char2hex",
    "C22_documented_size_refuted",
    "C22_truncation_overflows_refuted",
    "C22_tiny_capacity_overflows_refuted",
    "C22_tiny_capacity"
   ],
   "note": "every capacity settled: >= 3n+2 exact, 3n+1 loses a digit, 3..5 notice only, all others out of bounds (refuted documentation)"
  },
  {
   "property": "C23",
   "status": "proved",
   "theorems": [
    "C23_stringbuilder_concatenates",
    "C23_append_succeeds",
    "C23_appendf_error_refuted",
    "C23_appendnstr_clamp_refuted"
   ],
   "note": "every history and failure pattern; a failing vsnprintf (appendf) and the documented clamp of appendnstr are refuted"
  },
  {
   "property": "C24",
   "status": "proved",
   "theorems": [
    "C24_url_round_trip"
   ],
   "note": "recommended buffers, every byte string of 1..715827881 bytes"
  },
  {
   "property": "C25",
   "status": "proved",
   "theorems": [
    "C25_url_encode_fits",
    "C25_url_decode_in_bounds",
    "C25_url_bad_arguments"
   ],
   "note": "exact fit condition, nothing outside the buffer touched, every input"
  },
  {
   "property": "C26",
   "status": "proved",
   "theorems": [
    "C26_init",
    "C26_blocks",
    "C26_always_defined",
    "C26_large_minimum_refuted"
   ],
   "note": "every pool, history and caller that respects the API; min_alloc above 2^30 is refuted (signed shift)"
  },
  {
   "property": "C27",
   "status": "proved",
   "theorems": [
    "C27_accounting",
    "C27_malloc_succeeds_iff_it_fits",
    "C27_maxmem",
    "C27_roundup",
    "C27_all_freed_is_initial"
   ],
   "note": "exact accounting, exact success condition of malloc (aligned gap), maxmem, and the free lists of an emptied pool equal the initial ones"
  },
  {
   "property": "C28",
   "status": "proved",
   "theorems": [
    "C28_content",
    "C28_realloc",
    "C28_calloc_zeros",
    "C28_resize"
   ],
   "note": "every byte, through every history; realloc in place, moved or failing"
  },
  {
   "property": "C29",
   "status": "proved",
   "theorems": [
    "C29_handler_no_fault",
    "C29_handler_in_order_once",
    "C29_handler_all_delivered",
    "C29_handler_progress",
    "C29_handler_no_endless_polling",
    "C29_handler_push_answers",
    "C29_handler_full_means_no_room",
    "C29_handler_destroy_wakes",
    "C29_handler_destroyed_means_finished",
    "C29_handler_huge_message_refuted",
    "C29_handler_message_lost_on_oom_refuted",
    "C29_handler_push_refused_after_end"
   ],
   "note": "every schedule of pusher, worker and destroyer over the byte-level queue; messages above 2^30 bytes and loss of accepted messages when a malloc in the worker fails are refuted"
  },
  {
   "property": "C30",
   "status": "proved",
   "theorems": [
    "C30_no_fault",
    "C30_in_order_at_most_once",
    "C30_nothing_lost_after_clear",
    "C30_progress",
    "C30_bounded_work",
    "C30_room_when_caught_up",
    "C30_full_means_no_room",
    "C30_clear_at_most_one_late",
    "C30_destroy_wakes",
    "C30_destroyed_means_finished",
    "C30_clear_refuted",
    "C30_push_refused_after_end"
   ],
   "note": "every schedule, byte-level queue, fewer than 2^64 - 2 messages; order, no loss after clear, bounded work proved; one message that passed the token test may still be delivered after clear returned (refuted)"
  },
  {
   "property": "C31",
   "status": "proved",
   "theorems": [
    "C31_history_is_legal",
    "C31_first_in_first_out",
    "C31_at_most_once",
    "C31_no_null_dereference",
    "C31_no_endless_run",
    "C31_all_done_when_quiet",
    "C31_one_worker_order",
    "C31_no_workers_refuted"
   ],
   "note": "every number of workers, schedule, spurious wake-up and job that submits jobs; at most once, FIFO, no endless run, nothing left behind. Sequentially consistent memory; a pool without workers never runs its jobs (separate theorem)"
  },
  {
   "property": "C32",
   "status": "proved",
   "theorems": [
    "C32_wait_returns_idle",
    "C32_wait_covers_earlier_jobs",
    "C32_single_waiter_returns",
    "C32_second_waiter_refuted"
   ],
   "note": "what a return guarantees is proved for every schedule; that every call returns is proved for one waiting thread and refuted for two (cond_signal wakes one)"
  },
  {
   "property": "C33",
   "status": "proved",
   "theorems": [
    "C33_calendar",
    "C33_fields_normal",
    "C33_after_2038_refuted",
    "C33_before_epoch_refuted",
    "C33_negative_refuted"
   ],
   "note": "exact on the whole range stated; failures outside it shown by the refutations"
  },
  {
   "property": "C34",
   "status": "proved",
   "theorems": [
    "C34_cached_is_uncached",
    "C34_text",
    "C34_epoch_empty_refuted",
    "C34_epoch_overflow_refuted"
   ],
   "note": "any number of threads and interleavings, whole buffer compared; the exact text is proved too; the first second of the epoch in UTC hits the empty cache (refuted: empty text or write before the buffer)"
  },
  {
   "property": "C35",
   "status": "proved",
   "theorems": [
    "C35_str_params_is_a_map",
    "C35_long_round_trip",
    "C35_get_str_returns_length_refuted",
    "C35_get_int_truncates_refuted",
    "C35_failed_growth_frees_stored_refuted"
   ],
   "note": "every history and every long; documented return value of get_str, truncation in get_int and freeing of stored strings when the table cannot grow are refuted"
  },
  {
   "property": "C36",
   "status": "proved",
   "theorems": [
    "C36_to_str_text",
    "C36_create_str_parses",
    "C36_text_round_trip",
    "C36_failed_alloc_gives_partial_text_refuted"
   ],
   "note": "exact text, exact parse and observational round trip; a failed allocation yields a partial text instead of failure (refuted), repeated keys leak"
  },
  {
   "property": "C37",
   "status": "proved",
   "theorems": [
    "C37_every_history_answers_like_the_map",
    "C37_get_reads_the_map",
    "C37_has_section_and_key",
    "C37_last_put_wins",
    "C37_put_then_get",
    "C37_numbers_read_back",
    "C37_foreach_visits_everything_in_order",
    "C37_boolean_words",
    "C37_deleting_the_newest_section_refuted",
    "C37_long_section_names_refuted",
    "C37_long_values_refuted",
    "C37_other_corners_refuted"
   ],
   "note": "every history of put/delete with every allocation failure, names up to 63 and values up to 255 characters, not deleting the section created last; that deletion (use after free), longer names and values, a NULL section, int truncation and foreach's break are refuted"
  },
  {
   "property": "C38",
   "status": "proved",
   "theorems": [
    "C38_the_reader_follows_the_line_meanings",
    "C38_parsing_any_text_is_defined",
    "C38_dump_is_defined",
    "C38_dump_text_is_exact",
    "C38_dump_then_parse_gives_the_same_object",
    "C38_other_objects_refuted",
    "C38_dump_ignores_failed_header_refuted"
   ],
   "note": "the reader and parse are defined and exact for every text below 2^31 bytes, dump is defined for every allocator; round trip for every object meeting the reader's limits (plain); objects outside the limits and an ignored append failure are refuted"
  },
  {
   "property": "C39",
   "status": "proved",
   "theorems": [
    "C39_leak_report",
    "C39_free",
    "C39_wrong_allocator",
    "C39_malloc",
    "C39_calloc",
    "C39_strdup",
    "C39_strndup",
    "C39_writes_inside_are_safe",
    "C39_no_undefined_behaviour",
    "C39_map_failure_ignored_refuted",
    "C39_size_wrap_refuted",
    "C39_calloc_wrap_refuted",
    "C39_across_init_refuted"
   ],
   "note": "every history of malloc/calloc/strdup/strndup/realloc/free and arbitrary memory corruption by the program, sizes that do not wrap; ignored hashmap_put failure, size wraps and use across init/uninit are refuted; the map is abstract (its own correctness is C12-C15), calls are atomic"
  },
  {
   "property": "C40",
   "status": "proved",
   "theorems": [
    "C40_realloc",
    "C40_realloc_other_arguments",
    "C40_tracker_off_loses_content_refuted",
    "C40_size_wrap_refuted"
   ],
   "note": "every live block and size with the tracker on; with the tracker off the content is lost, and sizes near SIZE_MAX wrap (refuted)"
  },
  {
   "property": "C41",
   "status": "proved",
   "theorems": [
    "C41_append_slash",
    "C41_append_slash_rejects",
    "C41_append_slash_refuted",
    "C41_unterminated_refuted",
    "C41_mkdirs_exact",
    "C41_mkdirs_creates_all",
    "C41_mkdirs_256_refuted"
   ],
   "note": "every path, buffer and file system up to 255 bytes; exactly one trailing slash is refuted (trailing spaces, mixed separators), as are unterminated paths and 256-byte paths in mkdirs"
  },
  {
   "property": "C42",
   "status": "proved",
   "theorems": [
    "C42_read",
    "C42_read_everything",
    "C42_write",
    "C42_huge_request_refuted",
    "C42_read_all"
   ],
   "note": "every splitting of the transfer, with errors, for requests below 2^31 bytes (larger ones overflow the int counter: refuted separately); file_util_read_all included"
  },
  {
   "property": "C43",
   "status": "proved",
   "theorems": [
    "C43_records",
    "C43_default_tag_total",
    "C43_header_bounded",
    "C43_long_function_name_refuted",
    "C43_trigger_level_refuted",
    "C43_tid_ambiguous_refuted",
    "C43_tid_min_refuted",
    "C43_hex",
    "C43_hex_overflow_refuted"
   ],
   "note": "every history of settings, level, tag, function, line, message, time, thread id above INT_MIN and allocator; exact text and destinations; long function names (buffer overrun), trigger levels above 6, hex dumps of 171 bytes and more and thread id INT_MIN are refuted. Calls are serial (the library's mutex); the cached time text is C34"
  },
  {
   "property": "C44",
   "status": "proved",
   "theorems": [
    "C44_logger_no_fault",
    "C44_logger_files",
    "C44_logger_all_written",
    "C44_logger_lost_file",
    "C44_logger_answers",
    "C44_logger_init",
    "C44_logger_same_name_refuted",
    "C44_logger_open_failure_refuted",
    "C44_logger_deinit_loses_records_refuted",
    "C44_logger_huge_record_refuted"
   ],
   "note": "every schedule of caller, worker and deinit over the byte-level queue, every record below 2^30 - 15 bytes, every realloc/fopen/fprintf outcome; exact contents, order and rotation as long as file names differ; same-millisecond names (truncation of the earlier file), silent loss when fopen fails, loss of queued records at deinit and records above 2^31 bytes are refuted. stdio buffering and crashes: see C82"
  },
  {
   "property": "C45",
   "status": "proved",
   "theorems": [
    "C45_mcs_mutual_exclusion",
    "C45_mcs_fifo",
    "C45_mcs_no_fault",
    "C45_mcs_no_lost_waiter",
    "C45_mcs_steps_bounded",
    "C45_mcs_free_iff_unused",
    "C45_mcs_try",
    "C45_mcs_touches_released_node_refuted",
    "C45_mcs_reused_node_refuted",
    "C45_mcs_no_event_refuted"
   ],
   "note": "every interleaving of any number of threads (sequentially consistent memory, each atomic operation and event call a step), one lock; ptw32_mcs_node_transfer (unused) is not modelled; the failures outside the conditions are refuted by runs"
  },
  {
   "property": "C46",
   "status": "proved",
   "theorems": [
    "C46_hash_string_of_content",
    "C46_hash_integer_injective",
    "C46_hash_bytes_of_content",
    "C46_hash_string_overflow_refuted"
   ],
   "note": "content-only, injectivity and no over-read proved with wrapping arithmetic; in ISO C every string of >= 4 characters overflows (refuted)"
  },
  {
   "property": "C47",
   "status": "proved",
   "theorems": [
    "C47_destroy_waits_for_running_jobs",
    "C47_destroy_too_early_refuted",
    "C47_destroy_drops_queued_jobs_refuted"
   ],
   "note": "running jobs are waited for; the pool may be freed while the last worker still has to unlock its mutex, and queued jobs are dropped (refuted)"
  },
  {
   "property": "C48",
   "status": "proved",
   "theorems": [
    "C48_read_txt_every_file",
    "C48_pieces_are_lines",
    "C48_read_txt_short_lines",
    "C48_long_line_refuted",
    "C48_no_file"
   ],
   "note": "total: every file (pieces of at most 1023 bytes); equal to the lines when these have at most 1022 bytes"
  },
  {
   "property": "C49",
   "status": "proved",
   "theorems": [
    "C49_no_misuse",
    "C49_accounting",
    "C49_no_leak",
    "C49_create",
    "C49_destroy",
    "C49_destroy_null",
    "C49_msg_queue_destroy_null_refuted",
    "C49_deinit_null",
    "C49_grow",
    "C49_grow_refused",
    "C49_callers_memory",
    "C49_handler_without_semaphore_refuted",
    "C49_file_logger_path_refuted",
    "C49_create_over_live_refuted"
   ],
   "note": "block-level heap: data contents are in the other models; the worker's allocations happen at the join"
  },
  {
   "property": "C50",
   "status": "proved",
   "theorems": [
    "C50_cond_legal",
    "C50_cond_no_lost_wakeup",
    "C50_cond_progress",
    "C50_cond_broadcast",
    "C50_cond_signal",
    "C50_cond_wait_atomic",
    "C50_cond_returns_with_mutex",
    "C50_cond_counters",
    "C50_cond_broadcast_stolen_refuted",
    "C50_cond_init_not_zeroed_refuted",
    "C50_cond_spin"
   ],
   "note": "every interleaving at statement level, sequentially consistent memory, fewer than 2^64 notifications for progress; kernel failures and pthread_cond_destroy left out; stolen broadcast, unzeroed init and spinning shown by runs"
  },
  {
   "property": "C51",
   "status": "proved",
   "theorems": [
    "C51_rwlock_exclusion",
    "C51_rwlock_legal",
    "C51_rwlock_asserts",
    "C51_rwlock_blocked",
    "C51_rwlock_bounded",
    "C51_rwlock_progress",
    "C51_rwlock_counters",
    "C51_rwlock_legal_exclusive",
    "C51_rwlock_nested_read_refuted"
   ],
   "note": "every interleaving at statement level, sequentially consistent memory, clients that unlock only what they hold; WaitForMultipleObjects(all) atomic; kernel failures left out"
  },
  {
   "property": "C52",
   "status": "proved",
   "theorems": [
    "C52_thread_safe",
    "C52_thread_released_once",
    "C52_thread_join_value",
    "C52_thread_detach",
    "C52_thread_create_fails",
    "C52_thread_no_deadlock",
    "C52_thread_bounded",
    "C52_thread_second_call"
   ],
   "note": "every interleaving at statement level, sequentially consistent memory; ptw32_thread_reuse_lock as a lock with a holder (C45); WaitForSingleObject does not fail"
  },
  {
   "property": "C53",
   "status": "proved",
   "theorems": [
    "C53_mutex_safe",
    "C53_mutex_one_object",
    "C53_mutex_legal",
    "C53_mutex_exclusion",
    "C53_mutex_blocked",
    "C53_mutex_bounded",
    "C53_mutex_destroy",
    "C53_mutex_destroy_static_refuted",
    "C53_mutex_unlock_static_refuted",
    "C53_mutex_unlock_never_locked",
    "C53_rwlock_init",
    "C53_rwlock_destroy",
    "C53_rwlock_init_null_refuted"
   ],
   "note": "every interleaving at statement level, sequentially consistent memory, threads unlock only what they hold; critical sections as recursive locks; the double check of the rwlock (lines 308-323) not modelled separately"
  },
  {
   "property": "C54",
   "status": "proved",
   "theorems": [
    "C54_sem_name",
    "C54_sem_name_safe",
    "C54_sem_open_existing",
    "C54_sem_open_new",
    "C54_sem_open_fails",
    "C54_sem_open_missing_refuted",
    "C54_sem_close",
    "C54_sem_init_name",
    "C54_sem_init",
    "C54_sem_init_same_address_refuted",
    "C54_sem_timeout",
    "C54_sem_timeout_far_refuted",
    "C54_sem_timeout_early_refuted",
    "C54_sem_conserved",
    "C54_sem_no_overdraft",
    "C54_sem_no_lost_unit",
    "C54_sem_results",
    "C54_sem_getvalue_race_refuted",
    "C54_sem_post_lost_refuted"
   ],
   "note": "every interleaving at kernel-call level; the Win32 kernel objects are modelled from their documentation; sem_unlink (does nothing) not modelled"
  },
  {
   "property": "C55",
   "status": "proved",
   "theorems": [
    "C55_calendar",
    "C55_rfc1123",
    "C55_rfc1123_refuses",
    "C55_rfc1123_bounds",
    "C55_rfc2822",
    "C55_rfc2822_utc",
    "C55_rfc2822_C",
    "C55_rfc2822_refuses",
    "C55_rfc2822_bounds",
    "C55_rfc_injective",
    "C55_rfc1123_year_10000_refuted",
    "C55_rfc1123_overflow_refuted",
    "C55_rfc2822_locale_refuted"
   ],
   "note": "gmtime_r and strftime (the directives used) are modelled from the C standard; a NULL time pointer not modelled"
  },
  {
   "property": "C56",
   "status": "proved",
   "theorems": [
    "C56_current_ms_win",
    "C56_current_ms_posix",
    "C56_current_ms_win_2038_refuted",
    "C56_gettimeofday_init",
    "C56_gettimeofday_one_thread",
    "C56_gettimeofday_init_refuted",
    "C56_perf_ms",
    "C56_perf_exact",
    "C56_perf_drift_refuted",
    "C56_perf_slow_refuted",
    "C56_zone_offset",
    "C56_zone_offset_refuted"
   ],
   "note": "every interleaving at statement level, sequentially consistent memory; the system clocks, GetProcAddress and mktime are parameters"
  },
  {
   "property": "C57",
   "status": "proved",
   "theorems": [
    "C57_handle",
    "C57_join",
    "C57_join_twice_refuted",
    "C57_unlock_null_refuted",
    "C57_init_again_refuted",
    "C57_global_safe",
    "C57_global_users",
    "C57_init_failure_refuted",
    "C57_init_order_refuted",
    "C57_alone",
    "C57_init_race_refuted",
    "C57_init_lost_refuted"
   ],
   "note": "the pthread and semaphore functions are parameters (their result codes); portable_* wrappers of the same shape share one model; thread names not modelled"
  },
  {
   "property": "C58",
   "status": "proved",
   "theorems": [
    "C58_paused_stays",
    "C58_other_pools_run",
    "C58_pause",
    "C58_resume",
    "C58_resume_lost_refuted",
    "C58_pause_twice_refuted",
    "C58_resume_other_refuted"
   ],
   "note": "signal semantics (blocked during its handler, one pending) modelled from POSIX; thpool_pause is one action; sleep not modelled"
  },
  {
   "property": "C59",
   "status": "proved",
   "theorems": [
    "C59_defined",
    "C59_antisymmetric",
    "C59_transitive",
    "C59_numbers",
    "C59_plain",
    "C59_prefix_first_refuted",
    "C59_non_ascii_refuted"
   ],
   "note": "names of bytes 1..127 for the order laws (isdigit of a plain char is undefined for most bytes from 128 on); 'a name sorts before its extensions' is refuted"
  },
  {
   "property": "C60",
   "status": "proved",
   "theorems": [
    "C60_streams_are_positions",
    "C60_open_or_nothing",
    "C60_reads_every_entry",
    "C60_seek_goes_back",
    "C60_offset_is_position",
    "C60_rewind_starts_again",
    "C60_search_pattern",
    "C60_chdir_while_opening_refuted",
    "C60_rewind_after_failed_seek_refuted",
    "C60_rewind_after_end_refuted",
    "C60_equal_hashes_refuted",
    "C60_offset_of_unshown_entry_refuted"
   ],
   "note": "the system's answers are lists of entries given to each opening; the wide and the multi-byte stream are one record, errno left out; seekdir needs an unchanged directory and no two names with one hash"
  },
  {
   "property": "C61",
   "status": "proved",
   "theorems": [
    "C61_scandir"
   ],
   "note": "every malloc outcome; blocks and search handles counted; the wide and the multi-byte stream are one record, errno left out"
  },
  {
   "property": "C62",
   "status": "proved",
   "theorems": [
    "C62_unknown_entry_refuted",
    "C62_long_path_refuted"
   ],
   "note": "stat, readdir and the handler are arbitrary functions of an arbitrary outside world; POSIX PATH_MAX"
  },
  {
   "property": "C63",
   "status": "proved",
   "theorems": [
    "C63_matches",
    "C63_dlsym_handle",
    "C63_local_hidden",
    "C63_global_visible",
    "C63_program_first",
    "C63_next_after_caller",
    "C63_dlerror",
    "C63_message",
    "C63_hex",
    "C63_local_after_close_refuted",
    "C63_local_dependency_refuted",
    "C63_dlsym_race_refuted"
   ],
   "note": "64-bit Windows; the system's answers are arbitrary; SetErrorMode left out; one thread, as the library has no lock"
  },
  {
   "property": "C64",
   "status": "proved",
   "theorems": [
    "C64_dladdr",
    "C64_thunk",
    "C64_bad_thunk",
    "C64_thunk_fallback",
    "C64_exact",
    "C64_result",
    "C64_no_name",
    "C64_one_name",
    "C64_past_table_refuted",
    "C64_alias_refuted",
    "C64_forward_refuted"
   ],
   "note": "64-bit Windows, byte-level memory with unmapped places; which system call finds the module of an address is left open"
  },
  {
   "property": "C65",
   "status": "proved",
   "theorems": [
    "C65_parse_file",
    "C65_parse_file_null",
    "C65_parse_file_balanced",
    "C65_reader_reads_any_bytes",
    "C65_reader_file_is_string",
    "C65_save",
    "C65_save_then_parse",
    "C65_crash_leaves_a_prefix",
    "C65_save_result",
    "C65_is_file_path",
    "C65_failed_save_refuted",
    "C65_empty_object_refuted",
    "C65_short_write_refuted",
    "C65_crash_refuted",
    "C65_tiny_files_refuted"
   ],
   "note": "fwrite puts its bytes in order into the file at once; crash points between the steps of a save are listed (stdio buffers and the machine's cache are not modelled)"
  },
  {
   "property": "C66",
   "status": "proved",
   "theorems": [
    "C66_line",
    "C66_trace_line",
    "C66_history",
    "C66_min_level",
    "C66_hex",
    "C66_hex_85_refuted",
    "C66_hex_overflow_refuted"
   ],
   "note": "the user's message is given (its formatting is left out); the stack overrun of hex dumps from 86 bytes on is refuted as a safety claim"
  },
  {
   "property": "C67",
   "status": "proved",
   "theorems": [
    "C67_both_loggers_defined",
    "C67_one_logger_defined",
    "C67_redirect",
    "C67_back",
    "C67_slog_redirect_iso",
    "C67_back_iso_refuted",
    "C67_original_lost_refuted",
    "C67_failed_redirect_refuted",
    "C67_two_loggers_refuted",
    "C67_xlog_threads",
    "C67_two_threads_back_refuted"
   ],
   "note": "stdio buffering left out; ISO C and a reopenable closed stdout are two modes of one model"
  },
  {
   "property": "C68",
   "status": "proved",
   "theorems": [
    "C68_large_double_exact",
    "C68_multiple_of_1024th_exact",
    "C68_small_double_close",
    "C68_float_exact",
    "C68_get_codes",
    "C68_number_texts",
    "C68_tiny_is_lost_refuted",
    "C68_huge_is_cut_refuted"
   ],
   "note": "printf and strtod are modelled as correctly rounding (glibc); infinities and NaN are left out"
  },
  {
   "property": "C69",
   "status": "proved",
   "theorems": [
    "C69_what_thpool_init_does",
    "C69_a_refused_pool_leaves_nothing",
    "C69_everything_is_given_back",
    "C69_windows_loses_ten_objects_refuted",
    "C69_windows_refusal_refuted",
    "C69_a_failing_thread_refuted"
   ],
   "note": "block-level heap; a worker's turn is one step (interleavings in C31, C32 and C47); the Windows objects are those of pthread_win_simple.c, whose creation is assumed to succeed"
  },
  {
   "property": "C70",
   "status": "proved",
   "theorems": [
    "C70_what_ini_parser_create_does",
    "C70_every_history",
    "C70_everything_is_given_back",
    "C70_a_refused_section_loses_its_list_refuted",
    "C70_after_deleting_the_newest_section_refuted"
   ],
   "note": "block-level heap of LifeModel.v; names are numbers up to strcasecmp and the copy into 64 bytes is a parameter; texts in C21/C22; the leak and the use after free are kept as refuted claims"
  },
  {
   "property": "C71",
   "status": "proved",
   "theorems": [
    "C71_counters",
    "C71_printed"
   ],
   "note": "snprintf %u as bytes and decimal digits; the totals are printed as 32-bit numbers although they are kept with 64 bits"
  },
  {
   "property": "C72",
   "status": "proved",
   "theorems": [
    "C72_output",
    "C72_reads",
    "C72_calls",
    "C72_filter",
    "C72_safe",
    "C72_progress",
    "C72_never_enabled_refuted",
    "C72_no_mutex_refuted",
    "C72_callback_logs_refuted"
   ],
   "note": "accesses are sequentially consistent; three refutations show what the code does not guarantee"
  },
  {
   "property": "C73",
   "status": "proved",
   "theorems": [
    "C73_no_fault",
    "C73_every_answer",
    "C73_stream",
    "C73_messages",
    "C73_write_wait_free",
    "C73_read_wait_free",
    "C73_created",
    "C73_clear_refuted"
   ],
   "note": "memory taken as sequentially consistent (in and out are plain uint32_t); clear refuted"
  },
  {
   "property": "C74",
   "status": "proved",
   "theorems": [
    "C74_autocover_atomic",
    "C74_hashmap_atomic",
    "C74_size_refuted",
    "C74_unlocked_refuted",
    "C74_callback_deadlock_refuted"
   ],
   "note": "the user's lock is taken to be a correct non-recursive mutex; hashmap_size, unlocked maps and re-entrant callbacks refuted"
  },
  {
   "property": "C75",
   "status": "proved",
   "theorems": [
    "C75_no_fault",
    "C75_held_blocks",
    "C75_undisturbed",
    "C75_realloc_keeps",
    "C75_quiet",
    "C75_reports",
    "C75_progress",
    "C75_leak_check_during_malloc_refuted",
    "C75_double_free_refuted"
   ],
   "note": "the map's calls are atomic (C74); calloc of records and hashmap_put succeed (failures: C39); leak check during an allocation and concurrent double free refuted"
  },
  {
   "property": "C76",
   "status": "proved",
   "theorems": [
    "C76_numbers",
    "C76_other_texts",
    "C76_absent",
    "C76_str_params_rounds_twice_refuted"
   ],
   "note": "strtod and strtof round correctly (glibc); exponents, hexadecimal, names, infinities not modelled"
  },
  {
   "property": "C77",
   "status": "proved",
   "theorems": [
    "C77_no_fault",
    "C77_one_after_the_other",
    "C77_exclusion",
    "C77_blocks",
    "C77_calloc",
    "C77_results_distinct",
    "C77_calls_return",
    "C77_without_lock_refuted"
   ],
   "note": "the lock is a correct mutex; steps see memory in one order; counters read and written in one step; mplite_print_stats left out"
  },
  {
   "property": "C78",
   "status": "proved",
   "theorems": [
    "C78_no_fault",
    "C78_every_answer",
    "C78_stream",
    "C78_write_wait_free",
    "C78_read_wait_free",
    "C78_created",
    "C78_clear_refuted"
   ],
   "note": "sequentially consistent memory (the offsets are plain size_t, no barriers)"
  },
  {
   "property": "C79",
   "status": "proved",
   "theorems": [
    "C79_no_fault",
    "C79_every_answer",
    "C79_stream",
    "C79_write_wait_free",
    "C79_read_wait_free",
    "C79_reordered_refuted",
    "C79_late_refuted"
   ],
   "note": "x86-TSO with unbounded store buffers; loads of one thread are not reordered; compiler reordering only as the refuted machine"
  },
  {
   "property": "C80",
   "status": "proved",
   "theorems": [
    "C80_no_fault",
    "C80_every_answer",
    "C80_stream",
    "C80_messages",
    "C80_write_wait_free",
    "C80_read_wait_free",
    "C80_reordered_refuted",
    "C80_late_refuted"
   ],
   "note": "x86-TSO with unbounded store buffers; loads of one thread are not reordered; compiler reordering only as the refuted machine"
  },
  {
   "property": "C81",
   "status": "proved",
   "theorems": [
    "C81_no_fault",
    "C81_fifo",
    "C81_every_answer",
    "C81_push_wait_free",
    "C81_pop_wait_free",
    "C81_next_wait_free",
    "C81_reordered_refuted",
    "C81_late_refuted"
   ],
   "note": "x86-TSO with unbounded store buffers; loads of one thread are not reordered; compiler reordering only as the refuted machine"
  },
  {
   "property": "C82",
   "status": "proved",
   "theorems": [
    "C82_crash_files",
    "C82_crash_old_files",
    "C82_crash_lost_file",
    "C82_after_deinit",
    "C82_other_files",
    "C82_unflushed_refuted",
    "C82_torn_refuted"
   ],
   "note": "death of the process, not of the machine; write and fclose do not fail; file names as in C44 (no two alike) for the order statement; open failures may leave records out"
  },
  {
   "property": "C83",
   "status": "proved",
   "theorems": [
    "C83_no_fault",
    "C83_in_order_once",
    "C83_all_delivered",
    "C83_progress",
    "C83_no_endless_polling",
    "C83_push_answers",
    "C83_destroy_wakes",
    "C83_destroyed_means_finished",
    "C83_push_after_end_refused_refuted",
    "C83_push_refused_after_end",
    "C83_full_means_no_room",
    "C83_full_means_no_room_exactly_refuted"
   ],
   "note": "sem_post and sem_wait are locked instructions, the end of a thread and pthread_join drain its stores (as on x86); the store of the exit flag may overtake older stores of its thread (more behaviours than x86 has); messages up to 2^30 bytes"
  },
  {
   "property": "C84",
   "status": "proved",
   "theorems": [
    "C84_reads_latest",
    "C84_published",
    "C84_memory_up_to_date",
    "C84_mutual_exclusion",
    "C84_fifo",
    "C84_no_fault",
    "C84_no_lost_waiter",
    "C84_steps_bounded",
    "C84_free_iff_unused",
    "C84_published_when_release_is_called_refuted"
   ],
   "note": "CreateEvent succeeds and a node is reused only when no thread is about to touch it (as in C45); the interlocked functions drain the store buffer (as on x86); data is accessed under the lock only; ptw32_mcs_node_transfer left out"
  },
  {
   "property": "C85",
   "status": "proved",
   "theorems": [
    "C85_no_fault",
    "C85_in_order_at_most_once",
    "C85_nothing_lost_after_clear",
    "C85_progress",
    "C85_bounded_work",
    "C85_room_when_caught_up",
    "C85_full_means_no_room",
    "C85_clear_after_next_push",
    "C85_destroy_wakes",
    "C85_destroyed_means_finished",
    "C85_clear_at_most_one_late_refuted",
    "C85_nothing_stored_after_destroy_refuted",
    "C85_full_means_no_room_exactly_refuted",
    "C85_push_refused_after_end"
   ],
   "note": "sem_post and sem_wait are locked instructions, a thread's end and the join drain its stores; one client thread; the worker's pending store of the flag may overtake its stores of out (more behaviours than x86 has); counters and tokens are not torn; log and status callback left out"
  }
 ]
}