STATUS={
"C01":("proved","every history on every block; observational equality with the bounded FIFO"),
"C02":("proved","acceptance condition exact; no history accesses outside the block (Ub excluded)"),
"C03":("proved","FIFO refinement from any counter positions, including across the 32-bit wrap"),
"C04":("proved","total over every 32-bit request: exact capacity, refusal, or the undefined shift (each a theorem)"),
"C05":("proved","every history of push/pop/next_len/clear refines a bounded queue of whole messages"),
"C06":("proved","the size variable on success is the refuted documentation"),
"C08":("proved","exact capacity 2^k/one; the documented capacity is refuted for every size"),
"C09":("proved","total: exact answer for every position (C09_autocover_exact); the documented reading holds on the last cap-1 positions; aliasing, end position and oversized writes shown"),
"C11":("proved","encode = RFC 4648 text and decode inverts it for every input of >= 2 bytes; inputs of 0 and 1 byte are refused by the encoder (refuted part)"),
"C12":("proved","every text, valid or not"),
"C18":("proved","all 32-bit values; 1 is not recognised as a power of two and rounddown above 2^31 gives 0 (refuted parts)"),
"C19":("proved","every source, destination and size including 0"),
"C20":("proved","non-empty pattern, as stated; an empty pattern never returns (separate theorem)"),
"C21":("proved","strsplit/strtrim/UTF-8 counts exact on terminated strings; the count reads one byte past an unterminated buffer (refuted for that reading)"),
"C22":("proved","every capacity settled: >= 3n+2 exact, 3n+1 loses a digit, 3..5 notice only, all others out of bounds (refuted documentation)"),
"C24":("proved","recommended buffers, every byte string of 1..715827881 bytes"),
"C25":("proved","exact fit condition, nothing outside the buffer touched, every input"),
"C10":("proved","every history, element size and failure pattern when the initial byte size fits in size_t; overflowed sizes and append_value on wide elements refuted"),
"C23":("proved","every history and failure pattern; a failing vsnprintf (appendf) and the documented clamp of appendnstr are refuted"),
"C13":("proved","every history, hash function and pattern of allocation failures; a NULL value is not distinguishable from an absent key, as in the API"),
"C14":("proved","multiset equality of keys/values taken over and freed; callbacks only under the lock. Note: put of the same value pointer again frees it while stored, and the pointer returned by put/remove is already freed when a value callback is given"),
"C15":("proved","every entry visited exactly once; the documented stop is refuted"),
"C46":("proved","content-only, injectivity and no over-read proved with wrapping arithmetic; in ISO C every string of >= 4 characters overflows (refuted)"),
"C16":("proved","every history, heap and allocator; foreach with removal of the visited element proved; list.h's claim that any mutation inside the foreach callback is safe is refuted (use after free)"),
"C17":("proved","multiset equality, and the heap after list_free equals the heap before list_new"),
"C35":("proved","every history and every long; documented return value of get_str, truncation in get_int and freeing of stored strings when the table cannot grow are refuted"),
"C36":("proved","exact text, exact parse and observational round trip; a failed allocation yields a partial text instead of failure (refuted), repeated keys leak"),
"C26":("proved","every pool, history and caller that respects the API; min_alloc above 2^30 is refuted (signed shift)"),
"C27":("proved","exact accounting, exact success condition of malloc (aligned gap), maxmem, and the free lists of an emptied pool equal the initial ones"),
"C28":("proved","every byte, through every history; realloc in place, moved or failing"),
"C31":("proved","every number of workers, schedule, spurious wake-up and job that submits jobs; at most once, FIFO, no endless run, nothing left behind. Sequentially consistent memory; a pool without workers never runs its jobs (separate theorem)"),
"C32":("proved","what a return guarantees is proved for every schedule; that every call returns is proved for one waiting thread and refuted for two (cond_signal wakes one)"),
"C47":("proved","running jobs are waited for; the pool may be freed while the last worker still has to unlock its mutex, and queued jobs are dropped (refuted)"),
"C07":("proved","byte-by-byte interleaving, every schedule, message and buffer size, index wrap included; sequentially consistent memory (the indices are plain variables in the C code: a data race in ISO C)"),
"C29":("proved","every schedule of pusher, worker and destroyer over the byte-level queue; messages above 2^30 bytes and loss of accepted messages when a malloc in the worker fails are refuted"),
"C30":("proved","every schedule, byte-level queue, fewer than 2^64 - 2 messages; order, no loss after clear, bounded work proved; one message that passed the token test may still be delivered after clear returned (refuted)"),
"C33":("proved","exact on the whole range stated; failures outside it shown by the refutations"),
"C34":("proved","any number of threads and interleavings, whole buffer compared; the exact text is proved too; the first second of the epoch in UTC hits the empty cache (refuted: empty text or write before the buffer)"),
"C41":("proved","every path, buffer and file system up to 255 bytes; exactly one trailing slash is refuted (trailing spaces, mixed separators), as are unterminated paths and 256-byte paths in mkdirs"),
"C42":("proved","every splitting of the transfer, with errors, for requests below 2^31 bytes (larger ones overflow the int counter: refuted separately); file_util_read_all included"),
"C48":("proved","total: every file (pieces of at most 1023 bytes); equal to the lines when these have at most 1022 bytes"),
"C39":("proved","every history of malloc/calloc/strdup/strndup/realloc/free and arbitrary memory corruption by the program, sizes that do not wrap; ignored hashmap_put failure, size wraps and use across init/uninit are refuted; the map is abstract (its own correctness is C12-C15), calls are atomic"),
"C40":("proved","every live block and size with the tracker on; with the tracker off the content is lost, and sizes near SIZE_MAX wrap (refuted)"),
"C37":("proved","every history of put/delete with every allocation failure, names up to 63 and values up to 255 characters, not deleting the section created last; that deletion (use after free), longer names and values, a NULL section, int truncation and foreach's break are refuted"),
"C38":("proved","the reader and parse are defined and exact for every text below 2^31 bytes, dump is defined for every allocator; round trip for every object meeting the reader's limits (plain); objects outside the limits and an ignored append failure are refuted"),
"C43":("proved","every history of settings, level, tag, function, line, message, time, thread id above INT_MIN and allocator; exact text and destinations; long function names (buffer overrun), trigger levels above 6, hex dumps of 171 bytes and more and thread id INT_MIN are refuted. Calls are serial (the library's mutex); the cached time text is C34"),
"C44":("proved","every schedule of caller, worker and deinit over the byte-level queue, every record below 2^30 - 15 bytes, every realloc/fopen/fprintf outcome; exact contents, order and rotation as long as file names differ; same-millisecond names (truncation of the earlier file), silent loss when fopen fails, loss of queued records at deinit and records above 2^31 bytes are refuted. stdio buffering and crashes: see C82"),
"C45":("proved","every interleaving of any number of threads (sequentially consistent memory, each atomic operation and event call a step), one lock; ptw32_mcs_node_transfer (unused) is not modelled; the failures outside the conditions are refuted by runs"),
"C50":("proved","every interleaving at statement level, sequentially consistent memory, fewer than 2^64 notifications for progress; kernel failures and pthread_cond_destroy left out; stolen broadcast, unzeroed init and spinning shown by runs"),
"C51":("proved","every interleaving at statement level, sequentially consistent memory, clients that unlock only what they hold; WaitForMultipleObjects(all) atomic; kernel failures left out"),
"C52":("proved","every interleaving at statement level, sequentially consistent memory; ptw32_thread_reuse_lock as a lock with a holder (C45); WaitForSingleObject does not fail"),
"C53":("proved","every interleaving at statement level, sequentially consistent memory, threads unlock only what they hold; critical sections as recursive locks; the double check of the rwlock (lines 308-323) not modelled separately"),
"C54":("proved","every interleaving at kernel-call level; the Win32 kernel objects are modelled from their documentation; sem_unlink (does nothing) not modelled"),
"C55":("proved","gmtime_r and strftime (the directives used) are modelled from the C standard; a NULL time pointer not modelled"),
"C56":("proved","every interleaving at statement level, sequentially consistent memory; the system clocks, GetProcAddress and mktime are parameters"),
"C57":("proved","the pthread and semaphore functions are parameters (their result codes); portable_* wrappers of the same shape share one model; thread names not modelled"),
"C58":("proved","signal semantics (blocked during its handler, one pending) modelled from POSIX; thpool_pause is one action; sleep not modelled"),
"C49":("proved","block-level heap: data contents are in the other models; the worker's allocations happen at the join"),
"C59":("proved","names of bytes 1..127 for the order laws (isdigit of a plain char is undefined for most bytes from 128 on); 'a name sorts before its extensions' is refuted"),
"C60":("proved","the system's answers are lists of entries given to each opening; the wide and the multi-byte stream are one record, errno left out; seekdir needs an unchanged directory and no two names with one hash"),
"C61":("proved","every malloc outcome; blocks and search handles counted; the wide and the multi-byte stream are one record, errno left out"),
"C62":("proved","stat, readdir and the handler are arbitrary functions of an arbitrary outside world; POSIX PATH_MAX"),
"C63":("proved","64-bit Windows; the system's answers are arbitrary; SetErrorMode left out; one thread, as the library has no lock"),
"C64":("proved","64-bit Windows, byte-level memory with unmapped places; which system call finds the module of an address is left open"),
"C65":("proved","fwrite puts its bytes in order into the file at once; crash points between the steps of a save are listed (stdio buffers and the machine's cache are not modelled)"),
"C66":("proved","the user's message is given (its formatting is left out); the stack overrun of hex dumps from 86 bytes on is refuted as a safety claim"),
"C67":("proved","stdio buffering left out; ISO C and a reopenable closed stdout are two modes of one model"),
"C68":("proved","printf and strtod are modelled as correctly rounding (glibc); infinities and NaN are left out"),
"C69":("proved","block-level heap; a worker's turn is one step (interleavings in C31, C32 and C47); the Windows objects are those of pthread_win_simple.c, whose creation is assumed to succeed"),
"C70":("proved","block-level heap of LifeModel.v; names are numbers up to strcasecmp and the copy into 64 bytes is a parameter; texts in C21/C22; the leak and the use after free are kept as refuted claims"),
"C71":("proved","snprintf %u as bytes and decimal digits; the totals are printed as 32-bit numbers although they are kept with 64 bits"),
"C72":("proved","accesses are sequentially consistent; three refutations show what the code does not guarantee"),
"C73":("proved","memory taken as sequentially consistent (in and out are plain uint32_t); clear refuted"),
"C74":("proved","the user's lock is taken to be a correct non-recursive mutex; hashmap_size, unlocked maps and re-entrant callbacks refuted"),
"C75":("proved","the map's calls are atomic (C74); calloc of records and hashmap_put succeed (failures: C39); leak check during an allocation and concurrent double free refuted"),
"C76":("proved","strtod and strtof round correctly (glibc); exponents, hexadecimal, names, infinities not modelled"),
"C77":("proved","the lock is a correct mutex; steps see memory in one order; counters read and written in one step; mplite_print_stats left out"),
"C78":("proved","sequentially consistent memory (the offsets are plain size_t, no barriers)"),
"C79":("proved","x86-TSO with unbounded store buffers; loads of one thread are not reordered; compiler reordering only as the refuted machine"),
"C80":("proved","x86-TSO with unbounded store buffers; loads of one thread are not reordered; compiler reordering only as the refuted machine"),
"C81":("proved","x86-TSO with unbounded store buffers; loads of one thread are not reordered; compiler reordering only as the refuted machine"),
"C82":("proved","death of the process, not of the machine; write and fclose do not fail; file names as in C44 (no two alike) for the order statement; open failures may leave records out"),
"C83":("proved","sem_post and sem_wait are locked instructions, the end of a thread and pthread_join drain its stores (as on x86); the store of the exit flag may overtake older stores of its thread (more behaviours than x86 has); messages up to 2^30 bytes"),
"C84":("proved","CreateEvent succeeds and a node is reused only when no thread is about to touch it (as in C45); the interlocked functions drain the store buffer (as on x86); data is accessed under the lock only; ptw32_mcs_node_transfer left out"),
"C85":("proved","sem_post and sem_wait are locked instructions, a thread's end and the join drain its stores; one client thread; the worker's pending store of the flag may overtake its stores of out (more behaviours than x86 has); counters and tokens are not torn; log and status callback left out"),
}
