{"id": "C01", "title": "ring_buf is a bounded all-or-nothing FIFO", "statement": "Through any history of ring_buf_write/read/peek/discard/clear calls a ring buffer of `size` bytes behaves as a byte FIFO with capacity size-1: a call whose length is 0 or exceeds the available bytes (or free room) transfers nothing, changes nothing and returns 0; every other call transfers exactly the requested bytes in order and returns the requested length; the two availability queries always report exactly the queue length and the remaining room.", "quantifier": "every buffer size >= 3, every initial memory content, every finite sequence of operations with every length and every data, at every read/write offset", "why_tests_cant": "the wrap-around copy has a different shape for each pair of offsets and each length; only a proof covers all combinations and all histories", "anchors": ["src/ring/ring_buf.c: ring_buf_write, ring_buf_read, ring_buf_peek, ring_buf_discard, ring_buf_clear, ring_buf_available_read, ring_buf_available_write"]}
{"id": "C02", "title": "ring_buf never leaves the caller's memory", "statement": "ring_buf_create_with_mem accepts exactly the memory blocks that can hold the control structure plus 3 bytes, and no later operation reads or writes outside the data area it was given.", "quantifier": "every block size, every history of operations", "why_tests_cant": "out-of-bounds accesses depend on offsets reached after long histories and do not necessarily show in test output", "anchors": ["src/ring/ring_buf.c: ring_buf_create_with_mem, ring_buf_create, ring_buf_read, ring_buf_write"]}
{"id": "C03", "title": "RingBuffer is a FIFO with partial transfers, across counter wrap-around", "statement": "Through any history of RingBuffer_write/read/peek/discard/clear, a RingBuffer of power-of-two capacity behaves as a byte FIFO of exactly that capacity: a write appends the first min(n, free) bytes, a read removes the first min(n, stored) bytes, peek returns the same bytes without removing them, discard removes them, and each returns that count; this stays true when the 32-bit running counters wrap.", "quantifier": "every power-of-two capacity up to 2^31, every history including those transferring more than 2^32 bytes", "why_tests_cant": "the counters wrap only after 4 GiB of traffic and the interesting cases are combinations of wrap, offset and length", "anchors": ["src/ring/ringbuffer.c: RingBuffer_write, RingBuffer_read, RingBuffer_peek, RingBuffer_discard, RingBuffer_clear, RingBuffer_available_read, RingBuffer_available_write"]}
{"id": "C04", "title": "RingBuffer creation yields the documented capacity", "statement": "RingBuffer_create(n) yields, for 3 <= n <= 2^30 and n = 2^31, a buffer whose capacity is exactly the least power of two >= n, or no handle when memory is refused; n <= 2 yields no handle (2 included, although the header documents it as valid). RingBuffer_create_with_mem yields the greatest power of two that fits behind the control structure, no handle for blocks under 28 bytes. Every other request is undefined behaviour: above 2^30 (2^31 excepted) both functions shift a signed int out of range.", "quantifier": "every 32-bit request size and block size", "why_tests_cant": "4 billion sizes, bit tricks with boundary cases at powers of two and above 2^31", "anchors": ["src/ring/ringbuffer.c: RingBuffer_create, RingBuffer_create_with_mem, pri_roundup_power_of_2"]}
{"id": "C05", "title": "msg_queue delivers whole messages in order", "statement": "Through any history of msg_queue_push, msg_queue_pop, msg_queue_next_msg_size and msg_queue_clear calls the queue behaves as a FIFO of messages: every push reported successful is delivered by exactly one later pop with identical bytes and size, in order, until cleared; a push succeeds exactly when header plus payload fit in the free space, and a failed push leaves the queue unchanged.", "quantifier": "every capacity for which creation is defined, every sequence of operations, every message size 1..2^32-1 and content", "why_tests_cant": "message framing straddles the ring end at every offset; histories are unbounded", "anchors": ["src/ring/msg_queue.c: msg_queue_push, msg_queue_pop, msg_queue_next_msg_size, msg_queue_clear"]}
{"id": "C06", "title": "a failed msg_queue_pop loses nothing and reports the needed size", "statement": "msg_queue_pop with a too small buffer returns BUF_NOT_ENOUGH, stores the size of the pending message in *msg_size_p and leaves queue and buffer unchanged, so that retrying with a buffer of that size delivers that same message; an empty queue returns EMPTY; msg_queue_next_msg_size returns the size of the oldest message or 0. On success *msg_size_p keeps the buffer size passed in: the header's promise that it tells the message size is false.", "quantifier": "every queue content and buffer size", "why_tests_cant": "must hold for each reachable queue state", "anchors": ["src/ring/msg_queue.c: msg_queue_pop, msg_queue_next_msg_size", "inc/ring/msg_queue.h: msg_queue_pop"]}
{"id": "C07", "title": "one producer thread and one consumer thread may use a msg_queue without lock", "statement": "With one thread pushing and another popping at the same time, in every interleaving of their individual memory steps, each pop that succeeds returns exactly the next message successfully pushed (never torn, duplicated, reordered or lost), and no access leaves the buffer.", "quantifier": "every schedule of the two threads, every message sequence, every capacity", "why_tests_cant": "schedules are unbounded and a test run samples only a few", "anchors": ["src/ring/msg_queue.c: msg_queue_push, msg_queue_pop", "src/ring/ringbuffer.c: RingBuffer_write, RingBuffer_read", "inc/ring/msg_queue.h"]}
{"id": "C08", "title": "fixed_msg_queue is a FIFO of fixed-size messages with an exactly known capacity", "statement": "Messages pushed successfully are popped in order, unmodified and exactly once; a push fails exactly when no room for one whole message remains, a pop fails exactly when empty. The queue holds 2^k / one messages, 2^k being the greatest power of two not above one*cap - 24: always fewer than the max_msg_capacity cap given at creation (contrary to the header; possibly none at all).", "quantifier": "every message size one and capacity cap with one*cap <= 2^30 + 24 (or = 2^31 + 24), every history and allocation outcome", "why_tests_cant": "capacity depends on rounding of the product of two 32-bit numbers; histories unbounded", "anchors": ["src/ring/fixed_msg_queue.c: fixed_msg_queue_create, fixed_msg_queue_push, fixed_msg_queue_pop", "inc/ring/fixed_msg_queue.h"]}
{"id": "C09", "title": "autocover buffer keeps the newest bytes and reads by absolute position", "statement": "After any history of writes the buffer holds the last min(total, capacity) bytes written, less those consumed. auto_cover_buf_read at one of the last capacity-1 stream positions p returns exactly the bytes written at p..p+n-1 when they are all there, NOT_ENOUGH when they are not all written yet and COVERED when overwritten or consumed. Any other position is answered as the recent position congruent to it modulo the capacity (so an overwritten position is not recognised as such), the position congruent to the write position being COVERED, empty or the oldest byte depending on the layout. A write larger than the capacity aborts.", "quantifier": "every capacity 3..2^30, every history of writes up to the capacity and reads below 2^31 bytes, every position, streams of unbounded length", "why_tests_cant": "positions alias modulo the capacity; wrong answers need specific offset relations", "anchors": ["src/ring/autocover_buffer.c: auto_cover_buf_write, auto_cover_buf_read, auto_cover_buf_available_read", "inc/ring/autocover_buffer.h"]}
{"id": "C10", "title": "array is a growable sequence", "statement": "After any history of append operations an array holds exactly the appended elements in order: array_length is their number, array_ptr/array_at give each element's bytes, growth never changes stored elements, a failed allocation leaves the array unchanged and nothing is accessed outside its blocks. Conditions: the initial element room fits in size_t (otherwise the first append writes outside) and array_append_value is used with elements of at most 4 bytes (wider ones are read out of bounds).", "quantifier": "every element size and capacity whose product fits in size_t, every append history, every pattern of allocation failures", "why_tests_cant": "growth happens at data dependent points; allocation failures are never exercised by tests", "anchors": ["src/data/array.c: array_new, array_append_ptr, array_append_value, array_at, array_length"]}
{"id": "C11", "title": "base64 round trip", "statement": "For every byte string of at least 2 bytes base64_encode produces the RFC 4648 text (alphabet, padding) and base64_decode of it yields that byte string and its length; base64_decode also decodes the RFC text of shorter strings; inputs of 0 or 1 byte are refused by the encoder with -1 and nothing written.", "quantifier": "every byte string below 768 MiB (where the int sizes are exact)", "why_tests_cant": "256^n inputs; bit shuffles per position class", "anchors": ["src/data/base64.c: base64_encode, base64_decode"]}
{"id": "C12", "title": "base64 buffer size functions are sufficient", "statement": "The encoder writes exactly the number of bytes announced by base64_encode_buf_size (terminator included) and the decoder never writes more than base64_decode_buf_size bytes nor reads past the terminator, for any input string whatsoever.", "quantifier": "every input, valid base64 or not, of sizes whose encoded length fits in an int", "why_tests_cant": "malformed inputs are unbounded; overruns are silent", "anchors": ["src/data/base64.c: base64_encode_buf_size, base64_decode_buf_size, base64_encode, base64_decode"]}
{"id": "C13", "title": "hashmap is a finite map", "statement": "Through any history of put/get/contains/remove/clear/size, with any hash function and any equality the caller supplies that agrees with it, hashmap answers exactly like a finite map: get returns the value last put under an equal key and not removed since, put returns the previous value, remove returns the removed value, size is the number of distinct keys; growth of the bucket table is never observable.", "quantifier": "every hash function, every compatible equality, every operation history, every initial capacity, every allocation-failure pattern", "why_tests_cant": "collisions, chain positions and rehash moments give unboundedly many configurations", "anchors": ["src/data/hashmap.c: hashmap_create, hashmap_put, hashmap_get, hashmap_contains_key, hashmap_remove, hashmap_clear, hashmap_size, expandIfNecessary"]}
{"id": "C14", "title": "hashmap releases ownership exactly once", "statement": "Each key and value handed to a hashmap with free callbacks is passed to its callback at most once, exactly once when its entry is removed, replaced (value), cleared or the map destroyed, and never while it is still retrievable. Two effects a user must know: putting the stored value pointer again frees it while it stays stored, and with a value callback the pointer returned by put/remove is already freed.", "quantifier": "every operation history ending in destroy", "why_tests_cant": "double frees and leaks depend on the whole history", "anchors": ["src/data/hashmap.c: hashmap_put, hashmap_remove, hashmap_clear, hashmap_free"]}
{"id": "C15", "title": "hashmap_foreach visits every entry once; a stop request leaves only the bucket", "statement": "hashmap_foreach calls the callback at most once for each stored entry and for nothing else, and exactly once for each when the callback never returns false. A false answer does not stop the walk as documented: it only leaves the current bucket, so a callback that always answers false is still called once per non-empty bucket.", "quantifier": "every map content and every callback", "why_tests_cant": "depends on bucket layout of the entries", "anchors": ["src/data/hashmap.c: hashmap_foreach", "inc/data/hashmap.h"]}
{"id": "C16", "title": "list is a sequence", "statement": "Through any history of list_append/prepend/insert_after/remove/clear the list agrees with a mathematical sequence: length, front, back, contains, iteration order; remove deletes the first occurrence only; operations report failure without any effect when their preconditions (non-NULL data) fail or allocation fails. list_foreach visits in order, stops at the first false, and tolerates removal of the visited element; removal of the following element inside the callback (allowed by list.h) is a use after free.", "quantifier": "every operation history and allocation-failure pattern", "why_tests_cant": "head/tail special cases in combination with arbitrary histories", "anchors": ["src/data/list.c: list_append, list_prepend, list_insert_after, list_remove, list_clear, list_contains, list_foreach"]}
{"id": "C17", "title": "list frees each element exactly once", "statement": "With a free callback, each element is passed to it exactly once: when it is removed, cleared or the list is freed; elements still in the list are never passed to it.", "quantifier": "every history ending in list_free", "why_tests_cant": "needs a whole-history ownership argument", "anchors": ["src/data/list.c: list_remove, list_clear, list_free, list_free_node"]}
{"id": "C18", "title": "power-of-two helpers", "statement": "integer_is_power_of_two recognises exactly the powers of two other than 1; integer_roundup_pow_of_two returns the least power of two not below its argument for 2..2^31, 0 for 0, 2 for 1 and 0 above 2^31; integer_rounddown_pow_of_two returns the greatest power of two not above its argument for 2..2^31 and 0 for 0, 1 and everything above 2^31 (where 2^31 would be right).", "quantifier": "every 32-bit argument", "why_tests_cant": "2^32 inputs, boundary cases at both ends", "anchors": ["src/data/integer.c"]}
{"id": "C19", "title": "strlcpy and strlcat never overflow and report the needed length", "statement": "strlcpy/strlcat write at most the given capacity, always NUL terminate when capacity > 0 (and, for strlcat, when the destination is terminated in it), the result is the longest fitting prefix of the source (of the concatenation), and the return value is the untruncated length so truncation is detected exactly by result >= capacity.", "quantifier": "every source, destination and capacity including 0", "why_tests_cant": "unbounded strings and sizes", "anchors": ["src/mem/strings.c: strlcpy, strlcat"]}
{"id": "C20", "title": "strreplace replaces every occurrence", "statement": "strreplace returns a fresh, exactly sized string equal to the leftmost, non-overlapping replacement of all occurrences of a non-empty pattern, or NULL when allocation fails.", "quantifier": "every text, non-empty pattern, replacement", "why_tests_cant": "unbounded strings; buffer size must match the number of occurrences", "anchors": ["src/mem/strings.c: strreplace"]}
{"id": "C21", "title": "strsplit, strtrim and UTF-8 counting", "statement": "strsplit yields at most the requested number of maximal delimiter-free pieces in order; strtrim removes exactly the leading and trailing white space; strnutf8len counts the bytes that are not UTF-8 continuation bytes among the first n bytes before the terminator.", "quantifier": "every string", "why_tests_cant": "unbounded strings", "anchors": ["src/mem/strings.c: strsplit, strtrim, strutf8len, strnutf8len"]}
{"id": "C22", "title": "hex dump text: exact for capacity 3n+2, out of bounds when truncating", "statement": "str_char2hex writes the hexadecimal form of all n bytes, terminated and inside the buffer, when the capacity is at least 3n+2. With the documented size 3n+1 it stays inside but the last digit is missing. Every smaller capacity is wrong: 3..5 bytes get only the start of the notice and a length beyond the buffer is returned, and every other capacity up to 3n makes the call write outside the buffer.", "quantifier": "every byte count below 10^18 and every capacity", "why_tests_cant": "overrun depends on the numeric relation of count and capacity", "anchors": ["src/mem/strings.c: str_char2hex", "src/log/slog.c"]}
{"id": "C23", "title": "string builder holds the concatenation of what was appended", "statement": "After any history of successful appends a string builder's text is the concatenation of the appended pieces, terminated, with length reported exactly; a failed append leaves it unchanged; clear empties it; no access leaves the allocation. Conditions: formatting succeeds (a failing vsnprintf removes the last character and reports success, or writes out of bounds on an empty builder) and the length given to appendnstr stays within the string's memory (the documented clamp to the string length does not exist).", "quantifier": "every append history, initial size and allocation-failure pattern under these conditions", "why_tests_cant": "growth at data-dependent points; failures not exercised", "anchors": ["src/mem/stringbuilder.c: stringbuilder_create, stringbuilder_appendchar, stringbuilder_appendnstr, stringbuilder_appendf, stringbuilder_clear, stringbuilder_print, stringbuilder_len"]}
{"id": "C24", "title": "URL coding round trip", "statement": "url_decode applied to the output of a successful url_encode gives back the original bytes.", "quantifier": "every byte string, including NUL and non-ASCII bytes", "why_tests_cant": "256^n inputs", "anchors": ["src/net/url_encoder_decoder.c: url_encode, url_decode"]}
{"id": "C25", "title": "URL coding respects output buffers", "statement": "url_encode succeeds exactly when the encoded text and its terminator fit in the output buffer; url_encode and url_decode never write outside the output nor read outside the input; failures return the documented negative codes.", "quantifier": "every input and output size", "why_tests_cant": "overruns depend on the position of escapes relative to the buffer end", "anchors": ["src/net/url_encoder_decoder.c"]}
{"id": "C26", "title": "mplite hands out disjoint, in-pool, large-enough blocks", "statement": "Through any history of mplite malloc/free/realloc on one pool, every live block lies inside the caller's pool memory, is at least as large as requested, is aligned to the atom size relative to the pool start, and is disjoint from every other live block. Every call of a caller who respects the API is defined. A minimum allocation above 2^30 is undefined behaviour in mplite_init.", "quantifier": "every pool below 2^31 bytes, minimum allocation up to 2^30, and history of operations", "why_tests_cant": "fragmentation patterns are unbounded", "anchors": ["src/mem/mplite.c: mplite_init, mplite_malloc, mplite_free, mplite_realloc"]}
{"id": "C27", "title": "mplite conserves memory and coalesces", "statement": "No block of the pool is ever lost: freeing all live blocks in any order brings back the initial free state, an allocation fails only if no free block of sufficient size exists, and the free-memory accounting is exact after every history.", "quantifier": "every history", "why_tests_cant": "leaks and failed coalescing need specific histories", "anchors": ["src/mem/mplite.c: mplite_malloc, mplite_free, mplite_freemem, mplite_maxmem"]}
{"id": "C28", "title": "mplite realloc keeps content", "statement": "A successful mplite realloc/calloc returns a block of at least the new size that begins with the old content (zeros for calloc), and a failing realloc leaves the old block intact.", "quantifier": "every live block and size", "why_tests_cant": "content and layout unbounded", "anchors": ["src/mem/mplite.c: mplite_realloc, mplite_calloc"]}
{"id": "C29", "title": "message queue handler handles every accepted message once and in order", "statement": "Every message accepted by msg_queue_handler_push is passed to the callback exactly once, in push order and unmodified, as long as the callback keeps returning 0, the worker's buffer allocations succeed and the handler is not destroyed; the worker never sleeps while messages are pending, never polls endlessly, and destroy wakes and joins it. An allocation failure in the worker loses accepted messages, and messages above 2^30 bytes are undefined behaviour. A push that tests the exit flag once the worker has ended is refused (2). A push refused as full really had no room: the messages still waiting and the new one did not fit the queue together.", "quantifier": "every interleaving of pusher, worker and destroyer at the granularity of single queue and semaphore steps, every message of 1..2^30 bytes, every allocation outcome", "why_tests_cant": "schedules unbounded; retries on small buffer and semaphore counts interact", "anchors": ["src/ring/msg_queue_handler.c"]}
{"id": "C30", "title": "fixed message queue handler: order and clear", "statement": "Messages accepted by fixed_msg_queue_handler_push are delivered in order at most once; messages pushed after the last fixed_msg_queue_handler_clear are not lost; after clear has returned at most one message pushed before it can still be delivered, as the very first delivery (and this does happen: the worker may already have passed the token test). Destroy wakes and joins the worker. A push that tests the exit flag once the worker has ended is refused (2). A push refused as full really had no room: the messages still waiting and the new one did not fit the queue together.", "quantifier": "every interleaving of client, worker and destroyer, fewer than 2^64 - 2 messages", "why_tests_cant": "race between clear and worker", "anchors": ["src/ring/fixed_msg_queue_handler.c"]}
{"id": "C31", "title": "thread pool runs each job exactly once", "statement": "Every job accepted by thpool_add_work is started exactly once: at most once in every schedule, taken from the queue in submission order (with one worker also started in that order), and, while the pool with at least one worker is not destroyed, whatever the scheduler does, the pool comes to rest only when every submitted job has finished.", "quantifier": "every number of threads, every interleaving of submitters and workers", "why_tests_cant": "schedules unbounded; lost wake-ups are rare races", "anchors": ["src/thread/thpool.c: thpool_add_work, jobqueue_push, jobqueue_pull, bsem_post, bsem_wait, thread_do"]}
{"id": "C32", "title": "thpool_wait returns only when all work is done", "statement": "When thpool_wait returns there was a moment since the call at which every job submitted so far (by anyone, including by other jobs) was finished, so every job submitted before the call has completed. When only one thread uses thpool_wait each of its calls has returned once the pool has come to rest; with two waiting threads the second can be left waiting for ever although everything is done (only one is signalled).", "quantifier": "every number of workers, every interleaving, spurious wake-ups included", "why_tests_cant": "the gap between taking a job and being counted as working is a race window", "anchors": ["src/thread/thpool.c: thpool_wait, thread_do"]}
{"id": "C33", "title": "calendar conversion is right for every second until 2038", "statement": "The fast seconds-to-date conversion is defined and yields the Gregorian date and time of day, with all fields in range, for every number of seconds since 1970-01-01 up to 2038-01-19 03:14:07 UTC and every zone offset that keeps the local time at or after the epoch. Outside this range it is wrong: from 2^31 seconds on (int truncation), for negative times, and for local times before the epoch.", "quantifier": "every time 0 <= t < 2^31 and every zone offset in hours with 0 <= t/3600 + offset < 2^31", "why_tests_cant": "2^31 instants and all leap-year rules", "anchors": ["src/time/time_util.c: time_util_fast_second2date"]}
{"id": "C34", "title": "cached time text equals uncached text", "statement": "The time text and length returned by the functions that use the process-wide cache are identical, byte for byte in the caller's buffer, to what the uncached function returns for the same time, whatever calls were made before or are under way in other threads; the text is MM-DD HH:MM:SS.mmm (MMDDHHMMSS.mmm for file names) of the local calendar time. Excepted is the first second of the epoch in UTC, where the empty cache is taken for a hit (empty text or a write before the buffer).", "quantifier": "every history and interleaving of calls by any number of threads, every time and time zone", "why_tests_cant": "depends on call history", "anchors": ["src/time/time_util.c: time_util_get_time_str_current, time_util_get_time_str_for_file_name_current, get_time_str"]}
{"id": "C35", "title": "str_params is a string map", "statement": "add_str/add_long/del/has_key/get_str/get_long/get_int on a str_params object behave as a map from string to string with exact error codes, through every history in which the table can grow when it has to; every long added is read back. Not as documented: get_str returns 0 rather than the length, get_int silently truncates a long, and when the table cannot grow add_str frees the key and value it has just stored.", "quantifier": "every history of operations, every failing copy or entry allocation, table growth succeeding", "why_tests_cant": "unbounded histories", "anchors": ["src/mem/str_params.c"]}
{"id": "C36", "title": "str_params text round trip", "statement": "str_params_to_str yields the pairs key=value of the map, each once, joined by the delimiter; str_params_create_str parses any text into the map of its pieces (later pieces win, a repeated key leaks one copy); parsing the text of a map gives an object that answers every later history alike, for non-empty keys without '=' and delimiter and values without delimiter. A failed allocation inside str_params_to_str yields a partial text instead of NULL.", "quantifier": "every such map, every text", "why_tests_cant": "unbounded maps", "anchors": ["src/mem/str_params.c: str_params_create_str, str_params_to_str"]}
{"id": "C37", "title": "ini parser objects answer like a section/key map", "statement": "After any history of put/get/delete on an ini object the value read for (section, key) is the last one put, names compared without regard to case, iteration is in order of insertion and failure codes are exact, for names of up to 63 and values of up to 255 characters and as long as the section created last is not deleted. Outside: deleting that section leaves a dangling cache (use after free), longer section names are never found again, longer values are cut, a NULL section in put crashes, get_int truncates, and a stop in foreach only leaves the section.", "quantifier": "every history, every allocation failure", "why_tests_cant": "unbounded histories; internal cache of last section", "anchors": ["src/file/ini_parser.c"]}
{"id": "C38", "title": "ini dump and parse round trip", "statement": "The reader gives every text below 2^31 bytes exactly the meaning of its lines, parsing and dumping are defined for every text, object and allocator, the dumped text is exact, and parsing it reproduces the same sections, keys and values in the same order for objects within the reader's line and name limits. Other objects do not survive the round trip, and dump ignores a failed append of a section header.", "quantifier": "every text; every object", "why_tests_cant": "unbounded contents", "anchors": ["src/file/ini_parser.c: ini_parser_dump, ini_parser_parse_str", "src/file/ini_reader.c: ini_parse_stream"]}
{"id": "C39", "title": "allocation tracker detects misuse and counts leaks exactly", "statement": "allocation_tracker_expect_no_allocations returns exactly the sum of sizes of live tracked allocations; freeing an untracked or already freed pointer, or one whose canaries were overwritten, aborts instead of continuing; malloc, calloc, strdup, strndup and realloc of the tracked allocator return fresh, exactly sized, correctly filled blocks or NULL. Conditions: sizes do not wrap with the 16 canary bytes, the tracker's map accepts its entries (a failed insertion is ignored and the later free aborts), and blocks are not carried across init/uninit.", "quantifier": "every history of tracked allocations and frees with arbitrary writes by the program in between", "why_tests_cant": "histories unbounded", "anchors": ["src/mem/allocation_tracker.c", "src/mem/allocator.c"]}
{"id": "C40", "title": "lcu_realloc preserves content", "statement": "With the tracker on lcu_realloc of a live block returns the same block when it is large enough, NULL with nothing freed when memory is refused, and otherwise a new block that begins with all old bytes, the old one being released exactly once and no other block touched; NULL, size 0 and foreign pointers are treated as documented. With the tracker off the old content is not copied at all, and sizes within 2064 of SIZE_MAX wrap.", "quantifier": "every live block and size; every tracker state", "why_tests_cant": "depends on tracker state and sizes", "anchors": ["src/mem/allocator.c: lcu_realloc"]}
{"id": "C41", "title": "path helpers stay in their buffers", "statement": "file_util_append_slash_on_path_if_needed never writes beyond the given size nor behind the new terminator: it keeps the path when its last non-space character is the path's slash, else replaces trailing spaces by that slash, which takes the place of the last character when it does not fit; empty, blank or too small inputs are refused unchanged. file_util_mkdirs creates each missing prefix directory in order and stops at the first failure. Not: exactly one trailing slash (spaces behind a slash stay, mixed separators get a second one), unterminated paths and 256-byte paths in mkdirs are read out of bounds.", "quantifier": "every terminated path, buffer size and file system; paths up to 255 bytes for mkdirs", "why_tests_cant": "off-by-one cases at exact sizes", "anchors": ["src/file/file_util.c"]}
{"id": "C42", "title": "file read/write helpers transfer everything despite short transfers", "statement": "file_util_read and file_util_write return the number of bytes transferred, transferring the whole request when the stream makes progress, however the stream splits the transfer; file_util_read_all returns the whole file, terminated, or a failure code and nothing. Requests of 2^31 bytes and more overflow the int counter.", "quantifier": "every request below 2^31 bytes and every sequence of partial transfers and errors by the stream", "why_tests_cant": "short reads/writes are not produced by local files in tests", "anchors": ["src/file/file_util.c: file_util_read, file_util_write"]}
{"id": "C43", "title": "log records are filtered by level and formatted within their buffer", "statement": "After any history of settings, a log call produces output exactly when its level is enabled and at least the configured minimum; the record (header, function and line, message) has exactly the configured text, goes to exactly the configured destinations and never leaves its buffer as long as header and function field take at most 511 bytes (function names up to 440 characters always do); hex dumps up to 170 bytes likewise. Longer function names and hex dumps of 171 bytes and more overrun stack buffers, trigger levels above 6 index out of bounds, thread id INT_MIN overflows, thread ids are shown modulo 10^5, and a long record is silently dropped when memory is refused.", "quantifier": "every configuration history, level, tag, function, line, message, time, thread id above INT_MIN and allocator", "why_tests_cant": "unbounded strings, boundary widths", "anchors": ["src/log/xlog.c", "inc/log/xlog.h"]}
{"id": "C44", "title": "file logger writes each accepted record once, in order, rotating by size", "statement": "Each record accepted by the file logger appears once and in order in the sequence of files, and a new file is started exactly when the configured maximum size has been reached, as long as file names differ, files can be opened and the logger is not shut down with records queued. Otherwise: two rotations in the same millisecond truncate the earlier file, a failed fopen and deinit silently lose accepted records, and a record above 2^31 bytes overflows its buffer.", "quantifier": "every schedule of caller, worker and deinit, every record below 2^30 - 15 bytes, every realloc/fopen/fprintf outcome", "why_tests_cant": "rotation boundary depends on cumulative sizes", "anchors": ["src/log/file_logger.c"]}
{"id": "C45", "title": "MCS lock gives mutual exclusion", "statement": "As long as CreateEvent succeeds and a node is not handed in again while a thread that queued behind it has still to touch it, at most one thread is between acquire and release of the queue lock of the Windows pthread emulation, the lock is handed over in arrival order, no waiter is lost, try_acquire is refused only while the lock is in use and never waits, every call takes a bounded number of steps apart from waiting for the holder, and no null successor or closed event is used. Outside these conditions the lock fails: release may return while the successor still writes to the node, a node used again in that window leads to a null dereference, and a failed CreateEvent lets two threads in.", "quantifier": "every number of threads and nodes and every interleaving", "why_tests_cant": "race windows between swap and link steps", "anchors": ["src/thread/pthread_win_simple/ptw32_mcs_lock.c"]}
{"id": "C46", "title": "library hash functions agree with equality", "statement": "hash_function_string and hashmap_hash give the same int for equal contents wherever they are stored and read nothing beyond the key, and hash_function_integer and hash_function_pointer give different 32-bit values different hashes, when signed overflow wraps. In ISO C hash_function_string of every string of four or more characters overflows, which is undefined.", "quantifier": "every key", "why_tests_cant": "undefined overflow is invisible in tests; injectivity over all 2^32 values", "anchors": ["src/data/hash_functions.c", "src/data/hashmap.c: hashmap_hash"]}
{"id": "C47", "title": "thpool_destroy waits for running jobs, but not long enough", "statement": "When thpool_destroy frees the pool every job that was started has finished and every worker has left its loop. The last worker may however still have to unlock the mutex inside the freed pool (use after free), and jobs still queued are dropped without being run.", "quantifier": "every number of threads and every interleaving", "why_tests_cant": "the window between the last worker's decrement and its unlock is a few instructions wide", "anchors": ["src/thread/thpool.c: thpool_destroy, thread_do"]}
{"id": "C48", "title": "line reader delivers every non-blank line once, in order, with its number", "statement": "file_util_read_txt cuts any file at newlines and after every 1023 bytes without one, and calls the callback for each piece that is not blank, in order, with the number of the piece counted from 0 and its text up to the first NUL without leading white space, carriage return and newline; it stops at the first non-zero answer and returns it; 0 when everything was delivered, -1 without calling when the file cannot be opened. For text files with lines of at most 1022 bytes the pieces are the lines; longer lines are delivered in parts and shift the line numbers.", "quantifier": "every file of fewer than 2^31 pieces and every callback", "why_tests_cant": "lines of any length and number, callbacks with state", "anchors": ["src/file/file_util.c: file_util_read_txt"]}
{"id": "C49", "title": "creating and destroying objects leaks nothing and releases nothing twice, whatever allocation fails", "statement": "For ring buffers (both implementations, in own or in the caller's memory), message queues, fixed message queues, auto-cover buffers, string builders, message handlers and file loggers: in any sequence of create, destroy and buffer growth, with any allocation, semaphore, thread or file-open failures, no released block is touched, nothing is released twice, no embedded structure is passed to free; every library block, thread and stream belongs to exactly one object a variable still holds; after everything is destroyed nothing is left. A failed create changes nothing. A destroy sets the variable to NULL and releases that object's blocks and no others. The caller's memory is never released. NULL handles are accepted by every destroy but msg_queue_destroy. Refuted: msg_queue_destroy on a NULL handle, file_logger_init when the path copy fails, a handler is returned although its semaphore is missing, create over a live handle leaks.", "quantifier": "every sequence of create/destroy/grow over any number of variables, every pattern of allocation failures, every worker behaviour before join", "why_tests_cant": "failure patterns are exponentially many and a leak or double free has no visible result", "anchors": ["src/ring/ringbuffer.c: RingBuffer_create, RingBuffer_create_with_mem, RingBuffer_destroy", "src/ring/ring_buf.c: ring_buf_create, ring_buf_destroy", "src/ring/msg_queue.c: msg_queue_create, msg_queue_destroy", "src/ring/fixed_msg_queue.c: fixed_msg_queue_create, fixed_msg_queue_destroy", "src/ring/autocover_buffer.c: auto_cover_buf_create, auto_cover_buf_destroy", "src/mem/stringbuilder.c: stringbuilder_create, stringbuilder_destroy", "src/ring/msg_queue_handler.c: msg_queue_handler_create, msg_queue_handler_destroy", "src/ring/fixed_msg_queue_handler.c: fixed_msg_queue_handler_create, fixed_msg_queue_handler_destroy", "src/log/file_logger.c: file_logger_init, file_logger_deinit"]}
{"id": "C50", "title": "condition variable of the Windows pthread layer: no wake-up is lost or invented", "statement": "pthread_cond_wait/signal/broadcast (simple Windows implementation): wait gives the mutex up only once the thread is registered as a waiter and owns it again when it returns; a thread returns only after a signal or broadcast made since it started to wait granted a wake-up, a signal grants at most one and a broadcast one per waiter; when no thread inside a call can go on, every granted wake-up has woken a thread, so the last signal has woken one of the threads waiting at that moment and the last broadcast all of them; such a state can always be reached; the counters never wrap. A later signal can let newer waiters use up the wake-up of an earlier broadcast (refuted), pthread_cond_init does not zero its counters (refuted), and newer waiters may spin.", "quantifier": "every number of threads below 2^31, every interleaving of lock/unlock/wait/signal/broadcast", "why_tests_cant": "lost wake-ups depend on the schedule", "anchors": ["src/thread/pthread_win_simple/pthread_win_simple.c: pthread_cond_wait, pthread_cond_signal, pthread_cond_broadcast, pthread_cond_init"]}
{"id": "C51", "title": "reader/writer lock of the Windows pthread layer: exclusive writers, writer preference, no deadlock", "statement": "pthread_rwlock_rdlock/wrlock/unlock (simple Windows implementation): a thread that holds the lock for writing is the only holder; a reader is let in only when no writer holds the lock or has asked for it, a writer only when nobody holds it; the assertions in the code never fail; when no thread inside a call can go on, every blocked reader waits for a writer (holding or blocked) and every blocked writer for a holder, so once nobody holds the lock nobody is blocked; the calls that are not blocked finish within 12 steps each; the counters never wrap. A thread that asks again for a lock it reads, while a writer waits, blocks for ever (refuted).", "quantifier": "every number of threads below 2^31, every interleaving of their lock and unlock calls", "why_tests_cant": "exclusion, starvation and deadlock depend on the schedule", "anchors": ["src/thread/pthread_win_simple/pthread_win_simple.c: pthread_rwlock_rdlock, pthread_rwlock_wrlock, pri_pthread_rwlock_add_writer, pthread_rwlock_unlock"]}
{"id": "C52", "title": "threads of the Windows pthread layer: joined with their result, released exactly once", "statement": "pthread_create, pthread_join, pthread_detach (simple Windows implementation), with one join or detach per thread: no record is used after it was freed and no handle after it was closed; join returns 0 only after the thread has ended, with the one value its start routine returned; detach returns 0; whether a thread is joined, detached while it runs or detached after it ended, its record is freed exactly once and its handle closed exactly once; a create that fails leaves nothing behind and starts nothing; when nobody inside the library can go on, the only calls in progress are joins of threads whose start routine is running; the number of steps of all calls is bounded. A second join or detach of an ended thread reads freed memory.", "quantifier": "every number of threads, every start routine, every interleaving, every failure of malloc and CreateThread", "why_tests_cant": "use after free and double close depend on the schedule of owner and worker", "anchors": ["src/thread/pthread_win_simple/pthread_win_simple.c: pthread_create, pthread_join, pthread_detach, pri_win_thread_start_routine"]}
{"id": "C53", "title": "mutexes of the Windows pthread layer: static initialisation happens once, locking excludes", "statement": "pthread_mutex_lock/unlock (simple Windows implementation) on a mutex with any of the three static initialisers or made by pthread_mutex_init: however many threads race for the first lock, one object at most is allocated and all use it, and no marker value, NULL or uninitialised object is ever used; lock succeeds only when no other thread holds the mutex (the holder may lock again), fails only with ENOMEM, and unlock by a holder succeeds; when nobody inside the library can go on, a thread in a call waits for another thread that holds the mutex and is in no call; each call takes at most 10 steps. destroy frees the object once, sets the variable to NULL, and NULL is refused with EINVAL. pthread_rwlock_init stores a lock with three handles or changes nothing and leaves nothing open. Refuted: destroying a static mutex that was never locked, and unlocking a recursive or error-checking one, use the marker as a pointer; pthread_rwlock_init refuses a zeroed variable.", "quantifier": "every number of threads, every interleaving, every failure of calloc", "why_tests_cant": "double initialisation depends on the schedule of the first locks", "anchors": ["src/thread/pthread_win_simple/pthread_win_simple.c: pthread_mutex_init, pthread_mutex_lock, pthread_mutex_unlock, pthread_mutex_destroy, pthread_rwlock_init, pthread_rwlock_destroy"]}
{"id": "C54", "title": "semaphores of the Windows layer: names, opening, deadlines, counting", "statement": "Every semaphore name of 1..504 bytes is accepted and stays inside the 512-byte name buffer, any other is refused with EINVAL; sem_open of an existing name opens it without changing its value (EEXIST with O_CREAT|O_EXCL), sem_open with O_CREAT of a new name creates it with the given value; a failing call leaves the kernel as it was; sem_close gives the handle back. sem_init derives its name from the variable's address, different addresses never collide. sem_timedwait never passes INFINITE to the kernel and, for deadlines less than 49 days away, gives up within a millisecond of the deadline. For any number of threads, units are conserved: value = initial + posts - successful waits (up to units borrowed by running sem_getvalue calls), never negative nor above the maximum; when nobody can go on a waiting thread means no unit is left; each call's result is right. Refuted: opening a missing name without O_CREAT creates and leaks it; a second variable at the same address in another process gets EEXIST; a deadline more than 2^32 ms away counts as already passed; a wait may end before its deadline; sem_getvalue makes a concurrent sem_trywait fail, and a concurrent sem_post at the maximum is lost.", "quantifier": "every name, value, kernel table, deadline and clock reading; every number of threads and every interleaving", "why_tests_cant": "conservation depends on the schedule; name and time ranges cannot be enumerated", "anchors": ["src/thread/pthread_win_simple/semaphore_win_simple.c: sem_open_internal, sem_init, sem_open, sem_close, sem_destroy, sem_wait, sem_trywait, sem_timedwait, sem_post, sem_getvalue, arch_rel_time_in_ms"]}
{"id": "C55", "title": "RFC 1123 and RFC 2822 dates are exact", "statement": "For every time of the years 1000 to 9999 (before and after the epoch), time_rfc1123 writes exactly the text RFC 1123 asks for (weekday, day, month, year, time, GMT of the Gregorian calendar), independent of the locale, 29 bytes and a terminator, and nothing behind byte 30; time_rfc2822 and time_rfc2822_utc write the same date with the locale's names (in the C locale exactly RFC 2822's) and +0000 respectively UTC; two different times never print alike; a NULL or too small buffer gives -1 and is not touched; for any time and locale nothing is written beyond the given size. Refuted: from year 10000 on time_rfc1123 reports success with unspecified, unterminated contents; a time gmtime_r cannot represent indexes the name tables with an uninitialised value; a locale with longer names makes time_rfc2822_utc report success with an unterminated buffer. time_rfc2822 never prints the local offset its header promises.", "quantifier": "every time, every locale, every buffer and size", "why_tests_cant": "the range of times is infinite for practical purposes; weekday and leap-year errors show only on some dates", "anchors": ["src/time/time_rfc1123.c: time_rfc1123", "src/time/time_rfc2822.c: time_rfc2822, time_rfc2822_utc, time_strf"]}
{"id": "C56", "title": "clocks: exact milliseconds, safe first calls, zone offset", "statement": "time_util_current_ms yields exactly the milliseconds since 1970, rounded down (POSIX: any time since 1970; Windows: until 2038-01-19). On Windows, however many threads make their first call of gettimeofday at once, every call ends in a real system function where GetSystemTimePreciseAsFileTime exists; time_util_query_performance_ms, for any interleaving of first calls and a counter of at least 1 kHz, never divides by zero nor uses an unset frequency, returns the counter divided by the ticks per millisecond (the exact time if the frequency is a whole number of kHz, otherwise too large by less than a thousandth and one) and never goes back within a thread. time_util_zone_offset_seconds_to_utc yields the zone's offset if it does not change within the largest offset around now. Refuted: Windows after 2038 (32-bit tv_sec); without GetSystemTimePreciseAsFileTime a second thread may call through NULL during the first call; the 3.58 MHz timer runs 13 s per day fast; a counter below 1 kHz divides by zero; within some hours of a daylight saving change the zone offset is the wrong one.", "quantifier": "every time, frequency, counter value, zone; every number of threads and every interleaving of first calls", "why_tests_cant": "race of one-time initialisers; time ranges", "anchors": ["src/time/time_util.c: gettimeofday, init_gettimeofday, time_util_current_ms, init_get_milli_perf_freq, time_util_query_performance_ms, time_util_zone_offset_seconds_to_utc"]}
{"id": "C57", "title": "portable handles and library initialisation: nothing leaked, freed twice or missing", "statement": "portable_mutex/rwlock/sem_init either store one new object or (on any failure) NULL and leave nothing allocated; the matching destroy releases exactly it, uses return the pthread result, NULL is refused with -1; a join releases the thread's handle. For any sequence of lcu_global_init/cleanup, time_util_global_init/cleanup, xlog_global_init/cleanup with any allocation failures, no object is freed twice, used after free or lost. Using lcu_global_init/cleanup only, with fewer than 2^32 inits, the locks exist exactly while there are users (inits not undone by cleanups), and nothing remains after the last cleanup; extra cleanups do nothing. Refuted: a second join uses freed memory; portable_mutex_unlock dereferences NULL; re-initialising a live handle leaks; lcu_global_init reports success when the locks could not be made and later inits do not retry; after xlog_global_init it reports failure; two threads initialising at once: one returns before the locks exist, and a lost increment makes the first cleanup destroy the other user's locks.", "quantifier": "every sequence of calls, every failure of malloc and of the pthread functions; (refutations) interleavings of two threads", "why_tests_cant": "histories are unbounded; failures are rare", "anchors": ["src/lcu.c: lcu_global_init, lcu_global_cleanup", "src/time/time_util.c: time_util_global_init, time_util_global_cleanup", "src/log/xlog.c: xlog_global_init, xlog_global_cleanup", "src/thread/portable_thread_posix.c: portable_mutex_init, portable_mutex_destroy, portable_thread_create, portable_thread_join, portable_sem_init, portable_rwlock_init"]}
{"id": "C58", "title": "thpool_pause holds the workers of the pool until a resume", "statement": "Once all workers of a pool are held by thpool_pause they execute no step of any job, whatever else happens (further pauses, signals, other pools), until some thread calls thpool_resume or thpool_init. Workers of a pool that is never paused are never held. After thpool_pause, when every signal has been taken and every handler waits, the pool is held; after thpool_resume with no signal outstanding, every worker runs again. Refuted: a resume that overtakes an outstanding signal is lost, and the pool stays held; two pauses need two resumes; resuming one pool, or creating another pool, releases every pool.", "quantifier": "every number of pools and workers, every interleaving of work, signal delivery, handler steps, pauses, resumes and pool creations", "why_tests_cant": "signal delivery order is not controllable and schedules are unbounded", "anchors": ["src/thread/thpool.c: thpool_pause, thpool_resume, thread_hold, thpool_init"]}
{"id": "C59", "title": "versionsort's comparison is a strict total order and orders numbers by value (Windows)", "statement": "For ASCII file names strverscmp (and so versionsort) is defined, reads nothing beyond the terminators, returns 0 exactly for equal names, changes sign when the arguments are swapped, and is transitive, so scandir's sorting is well defined. Two names that agree up to a place where both have a number without leading zeros are ordered by the value of the numbers, whatever follows; names without digits are in dictionary order. Refuted: a name does not always sort before its extensions (img0 goes before img), and a byte from 128 to 254 at the first difference reaches isdigit as a negative number (undefined).", "quantifier": "all pairs and triples of ASCII names of any length", "why_tests_cant": "pairs and triples of strings are infinite; transitivity needs all triples", "anchors": ["inc/sys/dirent_windows.h: strverscmp, versionsort"]}
{"id": "C60", "title": "directory streams are positions in a listing (Windows dirent layer)", "statement": "An opened directory stream behaves as a position in the listing of its directory under any sequence of readdir, telldir, seekdir and rewinddir: reading gives every entry once, in order, with its name (or its short name), length, kind and the position of the next one, then NULL for ever; telldir does not move; d_off is the position after the entry; seekdir to a told position reads on from there whatever was done in between, if the directory has not changed and no two names share a hash; rewinddir reads the directory as it is now; the directory may vanish at any search. No handle or block is used after release, closedir gives back exactly what the stream held, a failed opendir holds nothing; the search pattern is the full path, a separator unless there is one, and *, within its buffer. Refuted: after a seek to a position that is not there (the end position is one) rewinddir no longer works; equal hashes lead to the wrong entry; the d_off of an entry whose name cannot be shown is not a position; a change of the working directory by another thread while opening corrupts the pattern buffer.", "quantifier": "all listings, conversions, operation sequences, system answers and allocation failures", "why_tests_cant": "operation sequences and listings are unbounded; failures can happen at every search", "anchors": ["inc/sys/dirent_windows.h: opendir, readdir, readdir_r, telldir, seekdir, rewinddir, closedir, dirent_first, dirent_next, dirent_hash"]}
{"id": "C61", "title": "scandir returns exactly the chosen entries, or nothing (Windows dirent layer)", "statement": "scandir on the Windows layer always comes back with defined behaviour. Either it returns -1 and every block and handle it acquired has been released, or it returns the number of entries that pass the filter, and the caller owns exactly one block per such entry, in the order of the comparison, and one table (none when the count is 0), whatever allocation fails and however many entries there are; the table is never written outside its capacity. It does not fail when memory suffices and the directory can be opened.", "quantifier": "all listings, filters, comparison results (any permutation), allocation failure patterns", "why_tests_cant": "listings are unbounded and each allocation can fail", "anchors": ["inc/sys/dirent_windows.h: scandir"]}
{"id": "C62", "title": "file_iterator_foreach visits the entries of a directory once, in order", "statement": "file_iterator_foreach calls the handler for the entries of the directory other than . and .., in directory order, once each, with the kind (file or directory) that stat reports under dir/name, each call beginning with the state the one before left; it ends only after the last entry, after a call that returned nonzero, or before an entry that cannot be stat'ed; it returns 0 exactly when the directory could be opened, and an opened stream is closed exactly once. If every entry can be stat'ed and the handler returns 0 all entries are handled. Refuted: an entry that cannot be stat'ed (a dangling link) silently hides everything after it, with result 0; a path of PATH_MAX or more bytes is cut and the kind of another file is reported.", "quantifier": "all directories, file system answers (which the handler may change), handlers, names", "why_tests_cant": "directories, handlers and file system histories are unbounded", "anchors": ["src/file/file_iterator.c: file_iterator_foreach, pri_get_file_stat"]}
{"id": "C63", "title": "dlopen/dlsym/dlclose/dlerror on Windows: RTLD_LOCAL libraries are hidden, RTLD_GLOBAL ones stay visible, errors are reported once", "statement": "Every history of dlopen, dlclose, dlsym and dlerror calls runs without touching freed memory or writing outside the error buffer, whatever the system answers, and keeps exactly one list node per hidden library. A library first loaded with RTLD_LOCAL is found by neither RTLD_DEFAULT, the handle of the program nor RTLD_NEXT until it is opened again or closed, whatever happens to other libraries; a library opened without RTLD_LOCAL is found as long as it is not closed, even if it was hidden before or is opened with RTLD_LOCAL afterwards. The program comes before libraries, these in load order; RTLD_NEXT sees only modules after the caller; a plain handle asks just that module. After a failed call dlerror gives \"argument\": text (without the line end, cut to the buffer, pointers as 0x and sixteen digits that denote the pointer) exactly once; after a successful one NULL. Refuted: closing one of two RTLD_LOCAL opens makes the still open library visible; dependencies of an RTLD_LOCAL library are visible; a module loaded between dlsym's two enumerations makes every library symbol unfindable.", "quantifier": "all call histories, modes, file names, module tables, dependencies, symbol tables, malloc and enumeration failures, error texts, buffer sizes of at least 5", "why_tests_cant": "histories of calls and system answers are unbounded", "anchors": ["src/sys/dlfcn_windows.c: dlopen, dlclose, dlsym, dlerror, local_search, local_add, local_rem, save_err_str, save_err_ptr_str"]}
{"id": "C64", "title": "dladdr names the nearest export at or below an address, following import thunks", "statement": "For an address in a module dladdr returns 1 and gives the module's base, its file name and the nearest export at or below the address with its first name (no name and no address when there is no such export or it has no name); a named exported function is recognised by its own address. For an import thunk whose slot lies in the module's import table (or, without one, between the first import descriptor's table and the end of the import directory) it describes the target in the slot. Otherwise the result is 0 and the caller's record is untouched. The file name of all records is that of the last call. Refuted: a slot just past the end of the import table is accepted; when two exports share an address and only the second is named no name is given; a forwarded export is reported as a function of the module.", "quantifier": "all memory contents, modules, export tables, addresses, system answers", "why_tests_cant": "export tables and memory layouts are unbounded", "anchors": ["src/sys/dlfcn_windows.c: dladdr, fill_info, get_export_symbol_name, get_image_section, get_address_from_import_address_table, is_valid_address, is_import_thunk"]}
{"id": "C65", "title": "Ini files: reading gives the object of the file's text, saving and reading back gives the same object", "statement": "ini_parser_parse_file of a file of at least six bytes gives exactly what parsing its text up to the first zero byte gives, and NULL in every other case (NULL or empty path, file cannot be opened, too small, no memory, short read); it always closes the file and frees the buffer. ini_reader_parse calls the handler, for any bytes in the file, with the meanings of the lines, each cut at its first zero byte, and agrees with ini_reader_parse_string on texts. A successful save leaves exactly the dumped text in the file and no other file changed, and parsing the saved file gives an object with the same answers. At every moment of a save the file is untouched or holds a beginning of the new text. is_file_path holds exactly for non-empty one-line strings whose first non-blank byte is neither # nor [. Refuted: a save that fails after opening has emptied the file and leaks the open file (an object without sections fails so); a short write is reported as success; a crash can lose old and new contents; a valid text of fewer than six bytes is refused, and a one-line ; comment is taken for a path.", "quantifier": "all files, contents, objects after any history, failing operations, crash points", "why_tests_cant": "contents, histories and crash points are unbounded", "anchors": ["src/file/ini_parser.c: ini_parser_parse_file, ini_parser_save, ini_parser_is_file_path", "src/file/ini_reader.c: ini_reader_parse, ini_reader_parse_file"]}
{"id": "C66", "title": "slog prints a message exactly when its level is enabled, with an exact line", "statement": "SLOGx prints the line [L/tag] message (SLOGx_TRACE also (function:line)) exactly when the minimum level is not OFF and not above the message's level; over any history of level changes and messages, what appears is the concatenation of the enabled lines. slog_get_min_level gives the last valid level set, invalid ones are ignored. SLOGx_HEX prints the complete dump for up to 84 bytes. Refuted: of 85 bytes the last digit is missing, from 86 bytes on the stack array is overrun.", "quantifier": "all levels, tags, messages, histories, byte strings", "why_tests_cant": "histories and inputs are unbounded", "anchors": ["src/log/slog.c: slog_set_min_level, slog_get_min_level, __slog_internal_hex_print", "inc/log/slog.h: SLOGV, SLOGV_TRACE, SLOGV_HEX"]}
{"id": "C67", "title": "Redirecting stdout: the file gets exactly what is printed until the next redirection or return (slog, xlog)", "statement": "On systems where a closed stdout can be opened again: with one of the two loggers, any history of redirections, returns, failures and messages is defined; after a redirection that works, the file holds exactly what was printed since and nothing else changes; after going back, output is appended to the terminal and the file keeps its contents; with both loggers a history without failures is defined. slog's repeated redirection is defined in ISO C. Any number of threads redirecting xlog and one going back never crash when redirections work. Refuted: going back (and redirecting xlog twice) uses a closed stream, undefined in ISO C; a stdout that was a pipe or file is not restored; after a failing redirection all output is lost and going back does nothing; the two loggers together can close a closed stream; two threads going back at once crash.", "quantifier": "all histories, paths, messages, failures, schedules", "why_tests_cant": "histories and schedules are unbounded", "anchors": ["src/log/slog.c: slog_stdout2file, slog_back2stdout", "src/log/xlog.c: xlog_stdout2file, xlog_back2stdout"]}
{"id": "C68", "title": "Floating-point numbers stored in str_params are read back", "statement": "After any history of a str_params, str_params_add_double followed by str_params_get_double of the same key gives the very same number when 2^20 <= |x| < 10^30, or when x is a multiple of 2^-10 and |x| < 10^30; for every other |x| <= 2^20 it differs by at most 2*10^-10. A float with 2^-9 <= |x| < 10^30 stored by add_float is read back unchanged by get_float. Refuted: |x| <= 5*10^-11 is read back as 0, and |x| >= 10^31 as a fifth of x or less (the text is cut to 31 characters), both with the code of success.", "quantifier": "all finite doubles and floats, keys, histories of the store", "why_tests_cant": "there are 2^64 doubles, and the histories are unbounded", "anchors": ["src/mem/str_params.c: str_params_add_double, str_params_add_float, str_params_get_double, str_params_get_float"]}
{"id": "C69", "title": "A thread pool gives back its memory", "statement": "For every number of threads and every pattern of failing allocations and thread creations, thpool_init returns a pool, returns NULL, or (refuted as a safe report) never returns when a thread's structure is refused and is undefined when pthread_create is refused. A NULL leaves the heap exactly as it was. After a pool was made, any sequence of added jobs (some refused for lack of memory, code -2) and worker turns is defined, and thpool_destroy - whether jobs still wait or not - frees each block exactly once and leaves the heap exactly as before thpool_init. Refuted on the Windows layer: each pool created and destroyed loses exactly ten kernel/heap objects (mutexes and conditions are never destroyed, the semaphore is initialised twice), and seven when only the array of threads is refused.", "quantifier": "all numbers of threads, answer sequences of malloc and pthread_create, histories of jobs", "why_tests_cant": "failing allocations at every point and unbounded histories cannot be enumerated by tests", "anchors": ["src/thread/thpool.c: thpool_init, thpool_add_work, thpool_destroy, jobqueue_init, jobqueue_push, jobqueue_pull, jobqueue_clear, jobqueue_destroy, thread_init, bsem_init", "src/thread/pthread_win_simple.c: pthread_mutex_init, pthread_cond_init"]}
{"id": "C70", "title": "An ini_parser gives back its memory", "statement": "ini_parser_create gives an object only if both its blocks can be allocated, and a NULL leaves the heap exactly as it was. Every history of puts, gets and deletions of keys and sections, whatever allocations fail on the way, gives the codes and values of a plain list of sections with lists of entries (out of memory 3, node of an entry refused 1, not found 4), never touches freed memory as long as the section created last was not deleted, and ini_parser_destroy then frees every block exactly once; if no allocation failed, the heap is exactly as before ini_parser_create. Refuted: a put into a new section whose list node cannot be allocated loses that section's list_t for good; and after ini_parser_delete_section of the section created last, every later operation but destroy reads freed memory (the cached last-used section is not reset).", "quantifier": "all histories of operations, names and values, and all patterns of failing allocations", "why_tests_cant": "failing allocations at every point and unbounded histories cannot be enumerated by tests, and a use after free often goes unnoticed", "anchors": ["src/file/ini_parser.c: ini_parser_create, search_target_section, ini_parser_put_string, ini_parser_get_string, ini_parser_delete_by_section_key, ini_parser_delete_section, ini_parser_destroy", "src/data/list.c: list_new, list_append, list_remove, list_clear, list_free, list_free_node_"]}
{"id": "C71", "title": "The statistics of a pool are those of its history", "statement": "After every history of malloc, calloc, realloc, free and writes on a pool, its counters are those of the history: blocks handed out, their bytes including rounding, the bytes nobody asked for (each modulo 2^64), the most bytes and blocks in use at one time, and the largest request considered (also if it could not be met). mplite_print_stats hands eight lines to the caller's function, each the documented text followed by the number in decimal without leading zeros, never more than its 256-byte buffer holds: the three totals modulo 2^32, the other five exactly.", "quantifier": "all pools, all histories of calls and all contents of the stack buffer", "why_tests_cant": "peaks and totals depend on the whole, unbounded history, and the width of the printed totals only shows after 2^32 bytes", "anchors": ["src/mem/mplite.c: mplite_malloc_unsafe, mplite_realloc, mplite_free_unsafe, mplite_print_stats"]}
{"id": "C72", "title": "Logging from several threads gives whole records", "statement": "After xlog_global_init, whatever the threads do and in whatever order: the output (console, flush, callback) is that of whole records, one after the other and never mixed, each exactly as a single-threaded program would get it after the settings made before it; every thread does what its calls say in their order, a record being made exactly if the level test passes; every getter and level test reads the settings of that moment, so that while nobody changes minimum level and target a record is logged exactly if its level is enabled. Nothing is undefined and some thread can always go on. Not so: records of a level that is never enabled can be logged while the level is switched off, outputs mix without xlog_global_init, and a callback that logs blocks for ever.", "quantifier": "all numbers of threads, all programs of setter, getter and log calls, all schedules, all contents of records", "why_tests_cant": "the interleaving of reads, writes, locks and outputs decides", "anchors": ["src/log/xlog.c: __xlog_internal_print, __xlog_internal_hex_print, xlog_set_target, xlog_set_min_level, xlog_set_format, xlog_set_flush_mode, xlog_set_tag, xlog_set_user_callback, xlog_auto_level_up, xlog_get_target, XLOG_IS_LOGABLE, XLOG_LOCK, XLOG_UNLOCK"]}
{"id": "C73", "title": "One writer thread and one reader thread need no lock on a RingBuffer or fixed_msg_queue", "statement": "A RingBuffer (or fixed_msg_queue) used by one thread that writes (pushes) and one thread that reads, peeks, discards or pops, with no lock and however their byte copies interleave: nothing outside the data area or the callers' blocks is touched; every call returns what the sequential ring of that capacity would return at one moment between call and return; the reader gets the bytes written, each once, in order, never torn or invented; popped messages are exactly the first pushed ones, whole; every call ends after a number of own steps bounded by its size, whatever the other thread does. Holds for all counter values, past the 32-bit wrap. The create functions give such rings. Not so for RingBuffer_clear by the reader during a write: old bytes are read a second time and the new ones never.", "quantifier": "all capacities, counter start values, sizes, contents, histories and byte-level schedules of the two threads", "why_tests_cant": "the interleaving of byte copies and counter updates decides", "anchors": ["src/ring/ringbuffer.c: RingBuffer_write, RingBuffer_read, RingBuffer_peek, RingBuffer_discard, RingBuffer_read_internal, RingBuffer_available_read, RingBuffer_available_write, RingBuffer_clear, RingBuffer_create, RingBuffer_create_with_mem", "src/ring/fixed_msg_queue.c: fixed_msg_queue_push, fixed_msg_queue_pop, fixed_msg_queue_create"]}
{"id": "C74", "title": "auto_cover_buf and hashmap with a lock are atomic for any number of threads", "statement": "An auto_cover_buf or a hashmap created with lock functions and used by any number of threads behaves, for every interleaving of their single accesses, as if each call took effect at one moment between its call and its return: the results are those of the sequential specifications (C09, C13-C15) for that order, the hashmap's free functions get each key and value exactly when it leaves the map, no access is undefined, no assertion fails, and some unfinished call can always go on. When all threads are done the map holds and hashmap_free frees exactly what that order leaves. Not so for hashmap_size (no lock: it answers sizes the map never had while another thread clears), for a map created without lock (a put is lost), nor for a hashmap_foreach callback that uses the map (a non-recursive lock: nobody returns again).", "quantifier": "all numbers of threads, schedules, calls, arguments, allocation outcomes, user hash and equality functions", "why_tests_cant": "the interleaving of the threads decides; histories are unbounded", "anchors": ["src/ring/autocover_buffer.c: auto_cover_buf_write, auto_cover_buf_read, auto_cover_buf_available_read", "src/data/hashmap.c: hashmap_put, hashmap_get, hashmap_remove, hashmap_clear, hashmap_foreach, hashmap_size, hashmap_free"]}
{"id": "C75", "title": "The tracked allocator is safe for any number of threads that keep its rules", "statement": "With allocation tracking on, any number of threads may call lcu_malloc, lcu_calloc, lcu_realloc and lcu_free in any interleaving, and the leak check while others free: no access is undefined and nothing aborts; the pointers held are distinct, each with its own block, both canaries in place and its entry in the tracker; nobody but the program's own writes changes a held block; a resize keeps the contents whatever the other threads do meanwhile; when no call is running the tracker's map, its records and the blocks are exactly those of the held pointers; a leak check reports each pointer at most once, with its size, all that were held throughout, none that was not live at the start, and their sum; and some unfinished call can always go on. Two limits: a leak check that overlaps an allocation reads next to NULL or aborts; two threads that free the same pointer at the same time use a freed record instead of being caught.", "quantifier": "all numbers of threads, schedules, sizes, addresses and bytes the C library returns, failing mallocs, visiting orders of the leak check", "why_tests_cant": "the interleaving of the threads decides; histories are unbounded", "anchors": ["src/mem/allocator.c: lcu_malloc_trace, lcu_realloc_trace, lcu_free", "src/mem/allocation_tracker.c: allocation_tracker_notify_alloc, allocation_tracker_notify_free, allocation_tracker_ptr_size, allocation_tracker_expect_no_allocations"]}
{"id": "C76", "title": "ini_parser_get_double and ini_parser_get_float read the nearest number", "statement": "After every history of puts and deletions: if the stored value is a number in decimal notation (white space, sign, digits with perhaps a point), ini_parser_get_double succeeds and stores the double nearest to it with its sign - no value that fits is out of range - and ini_parser_get_float, for numbers up to 2^127, the nearest float; a value without letters that is no such number gives FAILED, a missing section or key NOT_FOUND, and nothing is stored. str_params_get_float does not have this property: it rounds twice, and reads the text of 1 + 2^-24 + 2^-60 as 1.", "quantifier": "all histories, names and values; all doubles and floats as competitors for the nearest", "why_tests_cant": "the set of texts and of competing numbers is far too large; double rounding shows only on texts near a midpoint", "anchors": ["src/file/ini_parser.c: ini_parser_get_double, ini_parser_get_float, ini_parser_get_value", "src/mem/str_params.c: str_params_get_float"]}
{"id": "C77", "title": "An mplite pool with a lock can be shared by several threads", "statement": "With the lock given to mplite_setlock, in every schedule of mplite_malloc, calloc, free, realloc, resize, maxmem and freemem and of the threads' own writes into their blocks - where a block is used only by the one thread that holds it - no access leaves the pool or its tables and no ASSERT fails; every call takes effect in one go between its call and its return with the result it returns, as if the calls ran one after the other; the blocks held are always in the pool, aligned, apart, and keep every byte written into them even while other threads split and merge blocks; a block returned by calloc is zero although it is cleared outside the lock; mplite_size, read outside the lock, is right; at most one thread is inside the lock; every call can return. Without a lock two threads can get the same block.", "quantifier": "all pools, schedules (access by access), numbers of threads, sizes, and written bytes", "why_tests_cant": "interleavings of single accesses are unboundedly many; a byte lost to a concurrent merge or a size read during a split shows in almost no run", "anchors": ["src/mem/mplite.c: mplite_malloc, mplite_calloc, mplite_free, mplite_realloc, mplite_resize, mplite_maxmem, mplite_freemem, mplite_enter, mplite_leave, mplite_size, mplite_setlock"]}
{"id": "C78", "title": "One writer thread and one reader thread can share a ring_buf without a lock", "statement": "On an empty ring_buf given to one thread that only calls ring_buf_write and ring_buf_available_write and one that only calls ring_buf_read, ring_buf_peek, ring_buf_discard and ring_buf_available_read, in every interleaving of their single accesses: no access leaves the data area or the callers' blocks; every call returns what the sequential ring of size - 1 bytes would return at one moment between its call and its return (all of the request or nothing); over the whole run the reader gets the bytes written, each once, in order, none of them torn; a call ends after at most len + 3 own steps whatever the other thread does. ring_buf_clear is not such a call: during a write it tears the write.", "quantifier": "all rings (any size, any offset), schedules (access by access), request lengths, contents and run lengths", "why_tests_cant": "interleavings of single bytes are unboundedly many; a byte read before it was written shows in almost no run", "anchors": ["src/ring/ring_buf.c: ring_buf_write, ring_buf_read, ring_buf_peek, ring_buf_discard, ring_buf_available_read, ring_buf_available_write, ring_buf_clear, ring_buf_create, ring_buf_create_with_mem"]}
{"id": "C79", "title": "ring_buf between two threads on a machine with store buffers", "statement": "On x86 (stores of a thread reach memory late, but in order), with one writer and one reader thread and no lock or barrier: no access or late store leaves the data area; the reader gets the bytes written, each once, in order, none torn; every call returns what the sequential ring would return for some progress of the other thread, at least its calls before its last barrier and at most what it has begun; calls end after at most len + 3 own steps. What does not hold there: a write that has returned need not be visible to the next read yet. On a machine (or with a compiler) that lets stores overtake each other, the reader can get bytes that were never written: ring_buf.c has no barrier.", "quantifier": "all rings, schedules, times at which stores reach memory, request lengths, contents and run lengths", "why_tests_cant": "store buffers drain at times no test controls; reordering shows only on other hardware", "anchors": ["src/ring/ring_buf.c: ring_buf_write, ring_buf_read, ring_buf_peek, ring_buf_discard, ring_buf_available_read, ring_buf_available_write"]}
{"id": "C80", "title": "RingBuffer and fixed_msg_queue between two threads on a machine with store buffers", "statement": "On x86 (stores of a thread reach memory late, but in order), with one writer and one reader thread on a RingBuffer or fixed_msg_queue and no lock or barrier: no access or late store leaves the data area; the reader gets the bytes written, each once, in order, none torn; messages popped are the first of those pushed; every call returns what the sequential ring or queue would return for some progress of the other thread, at least its calls before its last barrier and at most what it has begun; a call ends after at most size + 3 (one message: size + 4) own steps. What does not hold there: a push that has returned 1 need not be visible to the next pop yet. On a machine (or with a compiler) that lets stores overtake each other, the reader can get bytes that were never written: ringbuffer.c has no barrier.", "quantifier": "all rings and queues, message sizes, schedules, times at which stores reach memory, request sizes, contents and run lengths", "why_tests_cant": "store buffers drain at times no test controls; reordering shows only on other hardware", "anchors": ["src/ring/ringbuffer.c: RingBuffer_write, RingBuffer_read, RingBuffer_peek, RingBuffer_discard, RingBuffer_available_read, RingBuffer_available_write", "src/ring/fixed_msg_queue.c: fixed_msg_queue_push, fixed_msg_queue_pop"]}
{"id": "C81", "title": "msg_queue between two threads on a machine with store buffers", "statement": "On x86 (stores of a thread reach memory late, but in order), with one producer and one consumer thread on a msg_queue and no lock or barrier: no access or late store leaves the data area and no ASSERT_ABORT fires; messages are delivered whole, in order, each once; a pop succeeds with exactly the next message, says too small with its size and consumes nothing, says empty only if everything pushed before the producer's last barrier has been popped; a push says full only if the message would not fit, counting as free only what was popped before the consumer's last barrier; push ends after at most size + 10, pop after capacity + 13, next_msg_size after 8 own steps. What does not hold there: a push that has returned success need not be visible to the next pop yet. On a machine (or with a compiler) that lets stores overtake each other, a pop can deliver bytes that were never pushed: msg_queue.c and ringbuffer.c have no barrier.", "quantifier": "all created queues, message sizes and contents, pop block sizes, schedules, times at which stores reach memory and run lengths", "why_tests_cant": "store buffers drain at times no test controls; reordering shows only on other hardware", "anchors": ["src/ring/msg_queue.c: msg_queue_push, msg_queue_pop, msg_queue_next_msg_size", "src/ring/ringbuffer.c: RingBuffer_write, RingBuffer_read, RingBuffer_peek, RingBuffer_discard"]}
{"id": "C82", "title": "What the log files hold if the process dies", "statement": "Whatever moment the process dies at, the files of the file logger on disk, one after another in the order they were opened, are a beginning of the lines of the first records handed in (those refused left out), in order and unaltered; every file but the newest is whole; the *_lost.log file holds a beginning of the refused records, and all of them when no file_logger_log call is writing to it; no other file changes; once file_logger_deinit has returned everything printed is on disk. What does not hold: a record that was accepted and printed can be missing on disk with the logger at rest (the file is never flushed while open), and the newest file can end in the middle of a record.", "quantifier": "all records, schedules of caller, worker and deinit, moments at which stdio hands bytes to the system, crash points and earlier disk contents", "why_tests_cant": "a test would have to kill the process at every instruction and control when stdio flushes", "anchors": ["src/log/file_logger.c: file_logger_log, handle_log_queue_msg, file_logger_deinit"]}
{"id": "C83", "title": "The message queue handler when stores reach memory late (x86-TSO)", "statement": "With store buffers between the three threads and memory, msg_queue_handler still hands the pushed messages to the callback in order, each at most once, whole and unaltered, under every schedule and every delay of stores; when the worker sleeps with no push under way and nothing having ended the handler, every accepted message has been delivered; the worker never polls endlessly; destroy always gets the worker to end, and when destroy has returned no store of any thread to the handler or its queue is on its way. A push answers 0, 5 (full), or 2 only after something ended the handler. What does not hold: a push that begins after the worker has ended can still be accepted (and its message lost), because the worker's store of the exit flag need not be in memory yet. A push that tests the exit flag once the worker has ended, its store of the flag being in memory, is refused (2). A push refused as full really had no room, except that the message passed to the callback last need not have left the queue yet.", "quantifier": "all queues msg_queue_create returns for up to 2^30+24 bytes, all messages, schedules of the three threads and delays of stores, callback results and malloc failures", "why_tests_cant": "store buffering depends on the processor and cannot be scheduled by a test", "anchors": ["src/ring/msg_queue_handler.c", "src/ring/msg_queue.c: msg_queue_push, msg_queue_pop", "src/ring/ringbuffer.c: RingBuffer_write, RingBuffer_read"]}
{"id": "C84", "title": "The MCS queue lock and the data it guards when stores reach memory late (x86-TSO)", "statement": "With store buffers between the threads and memory, ptw32_mcs_lock_acquire, _try_acquire and _release still exclude each other, give the lock in the order of queueing, lose no waiter and do not fault; and the data written under the lock needs no barrier of the caller: whatever a thread reads while holding the lock is the value last written under the lock by any thread, and when a thread has the lock everything the others wrote is in memory. What does not hold: that the data is in memory when release is called (it is when release has passed its first interlocked instruction).", "quantifier": "all numbers of threads and nodes, schedules, delays of stores and data accesses under the lock", "why_tests_cant": "store buffering depends on the processor and cannot be scheduled by a test", "anchors": ["src/thread/pthread_win_simple/ptw32_mcs_lock.c: ptw32_mcs_lock_acquire, ptw32_mcs_lock_try_acquire, ptw32_mcs_lock_release, ptw32_mcs_flag_set, ptw32_mcs_flag_wait"]}
{"id": "C85", "title": "The fixed message queue handler between three threads when stores reach memory late (x86-TSO)", "statement": "With store buffers between the threads and memory, a fixed message queue handler still delivers in order, each message at most once and unmodified; loses nothing pushed after the latest clear; never faults, and every store on its way lies in the queue's memory; the worker does bounded work between two waits; destroy wakes the worker and returns when it has finished and no store to the freed memory is on its way but those of clear; a push that looks after the end is visible is refused. A clear takes effect with the next successful push: once that has returned at most one callback, the first, can be for a message pushed before the clear. What does not hold: that at most one such callback follows the return of clear itself (any number can), and that nothing is stored after destroy if the thread that cleared is not synchronised with the one that destroys. A push refused as full really had no room, except that the slot of the message taken last need not count as free yet.", "quantifier": "all queues that can be created, messages, schedules, delays of stores and callback results, while fewer than 2^64 - 2 messages have been accepted", "why_tests_cant": "store buffering depends on the processor and cannot be scheduled by a test", "anchors": ["src/ring/fixed_msg_queue_handler.c: fixed_msg_queue_handler_push, fixed_msg_queue_handler_clear, fixed_msg_queue_handler_destroy, thread_fun_handle_msg", "src/ring/fixed_msg_queue.c: fixed_msg_queue_push, fixed_msg_queue_pop", "src/ring/ringbuffer.c: RingBuffer_write, RingBuffer_read"]}
