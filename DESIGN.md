# Formal model of wind0ws/libcutils in Rocq (Coq 8.16.1)

## 1. What is here

* `properties.jsonl` - the semantic properties (C01 ...), each stating the contract as the code really has it:
  what holds, under which explicit limits, and which documented or expected behaviour fails (each such failure is a
  `_refuted` theorem).
* `rocq/theories/` - the model and proofs. For a module X of the library:
  * `XModel.v`  - executable Gallina model of the C code, one definition per C function, each citing
    file and lines in /repo; no proofs.
  * `XSpec.v`   - small independent specification (queue = list, map = association list, ...). When
    tiny it lives at the top of the `Props_X.v` file.
  * `XProof.v`  - lemmas.
  * `Props_X.v` - only property theorems (`exact lemma.`), non-vacuity `Example`s and
    `Print Assumptions`.
* `MANIFEST.json` - property -> status, theorem names.
* `seeded/LOG.jsonl` - mutation log: wrong programs tried against the theorems.

## 2. Modelling conventions (trusted reading of C)

* Platform: LP64 (`size_t` and pointers 64 bit, `int` 32 bit two's complement, `char` is a byte 0..255
  unless signedness matters, then said so), `sizeof` of the control structures as laid out by the SysV ABI.
* C integers are `Z` with explicit reduction `mod 2^32` / `mod 2^64` at each unsigned operation
  that can leave its range; signed overflow is the distinct outcome `Ub`.
* Memory blocks are `list A` (bytes mostly; polymorphic where the code only copies). Each access is
  bounds checked: an access outside the block yields `Ub`. "Never leaves the buffer" is thus the
  statement that the outcome is `Ret _`.
* Outcomes: `Ret v` (normal), `Ub` (undefined behaviour: out-of-bounds, NULL dereference, use after free,
  signed overflow, bad shift), `Abrt` (the code calls abort/assert_abort), `NoFuel` (loop did not finish
  in the given fuel; excluded by theorem statements).
* External functions (malloc, calloc, realloc, user callbacks, hash functions, streams) are arguments of
  the model: allocation success is an oracle (a boolean or list of booleans universally quantified in the
  theorems).
* Logging calls have no effect on modelled state and are dropped.
* Concurrency is modelled as interleaving of atomic steps (sequential consistency), a mutex as a blocking
  lock. Hardware/compiler memory reordering is not modelled except in C79, C80 and C81 (store buffers): the other concurrency
  claims (C07, C29-C32, C34, C44, C45, C47, C73, C78) are about sequentially consistent executions, and their notes say so.

## 3. Trusted base

* Coq's kernel (8.16.1) and its `vm_compute` machine where a finite domain is swept.
* `Print Assumptions` is printed beneath each property theorem; all are "Closed under the global
  context" unless listed in section 6.
* The faithfulness of the hand translation from C to Gallina (citations at every definition).

## 4. Properties: what is modelled and how it is proved

| id | model | proof |
|----|-------|-------|
| C01,C02 | `RingBufModel.v`: `ring_buf.c` entire, block = list | abstraction to list queue, refinement over op lists; `Ub` excluded |
| C03,C04 | `RingBuffer2Model.v`: `ringbuffer.c` entire, counters mod 2^32 | refinement over op lists, invariant on (in-out) mod 2^32; creation by bit lemmas, total over all request sizes |
| C05,C06 | `MsgQueueModel.v`: `msg_queue.c` over the RingBuffer model | refinement: ring content = concat of framed messages |
| C07 | `SpscModel.v`: producer/consumer machine, each byte copied and each counter load/store a step | inductive invariant over all interleavings; step measure for wait-freedom |
| C08 | `FixedQueueModel.v` | refinement; documented capacity refuted for all sizes |
| C09 | `AutoCoverModel.v` | invariant: ring = last bytes of the stream; exact answer for every position |
| C10 | `ArrayModel.v`, realloc oracle | refinement to list |
| C11,C12 | `Base64Model.v` | round trip by induction in groups of three; decoder safety for every input |
| C13..C15, C46 | `HashmapModel.v`: hash/eq as parameters, frees as trace; `hash_functions.c` | refinement to association list; multiset of frees |
| C16,C17 | `ListModel.v`: node heap | separation of nodes, refinement to list; free trace |
| C18 | `IntegerModel.v` | bit lemmas over all 32-bit numbers |
| C19..C22 | `StringsModel.v` | functional equations; refutations for char2hex truncation, empty pattern |
| C23 | `StringBuilderModel.v` | invariant + refinement |
| C24,C25 | `UrlModel.v` | round trip; exact success condition |
| C26..C28 | `MpliteModel.v`: control bytes, free lists inside the pool bytes | buddy invariant: the pool is tiled by free and allocated blocks |
| C29 | `HandlerModel.v`: pusher, worker, destroyer over the byte-level queue, semaphore | invariant over interleavings, decreasing measure; "full" answers traced back to the ring's free space at the call |
| C30 | `FHandlerModel.v` | same, token per message |
| C31,C32,C47 | `ThpoolModel.v`: program counter per source line, any number of workers, waiters, submitters, spurious wake-ups | invariant over interleavings; well-founded measure for termination |
| C33,C34 | `TimeModel.v` | calendar algorithm against a day-by-day calendar; cache invariant over interleaved threads |
| C35,C36 | `StrParamsModel.v` over the hashmap model | refinement, parse/print |
| C37,C38 | `IniModel.v`, `IniReaderModel.v` and friends | refinement with heap-free objects plus the dangling-cache flag; reader against a line-meaning specification; round trip |
| C39,C40 | `AllocModel.v`: heap with canaries | reachable-state invariant; the map inside the tracker is abstract (its correctness: C13) |
| C41,C42,C48 | `FileModel.v`: stream and file system as oracles | functional equations |
| C43 | `XlogModel.v` | history of settings -> exact text and destinations |
| C44 | `FileLoggerModel.v`: caller, worker, deinit over C29's machine plus a file system of byte lists | invariant over interleavings |
| C45 | `McsModel.v`: nodes, events, one step per atomic operation | invariant over interleavings |
| C49 | `LifeModel.v`: heap of blocks with pointer cells, failure oracle; create/destroy/growth of eleven kinds of objects | frame relation `local`, step lemma per function, ownership invariant over all programs |
| C50 | `CondModel.v`: `pthread_cond_*` of the Windows layer, one step per system call | invariant over interleavings, measure |
| C51 | `RwlockModel.v`: `pthread_rwlock_*` of the Windows layer | invariant over interleavings, measure |
| C52 | `PthModel.v`: create/join/detach/exit of the Windows layer | invariant over interleavings |
| C53 | `LazyModel.v`: static initialisers, mutex lock/unlock/destroy of the Windows layer | invariant over interleavings |
| C54 | `SemModel.v`: semaphores of the Windows layer, named objects, deadlines | functional equations; conservation invariant |
| C55 | `RfcModel.v`: `time_rfc1123.c`, `time_rfc2822.c` over C33's calendar | exact text, injectivity |
| C56 | `ClockModel.v`: `gettimeofday` for Windows, performance counter, zone offset | arithmetic; invariant for the first-call races |
| C57 | `InitModel.v`: portable handles, `lcu_global_init`/`cleanup` | heap invariant over call sequences; counter argument |
| C58 | `PauseModel.v`: signals and the hold flag of the thread pool | invariant over interleavings |
| C59 | `VersModel.v`: `strverscmp` of the Windows dirent layer | decomposition of names into common part and number runs; order laws by cases |
| C60, C61 | `DirModel.v`: directory streams and `scandir` over a list of entries, blocks and search handles counted | refinement to a position in a list; balance of blocks |
| C62 | `IterModel.v`: `file_iterator_foreach` with an arbitrary outside world | induction over the listing |
| C63 | `DlModel.v`: `dlopen`, `dlsym`, `dlclose`, `dlerror`; the linked list of local objects in a heap | list invariant over any history of calls |
| C64 | `AddrModel.v`: `dladdr` over byte memory with image headers, export and import tables | extremum of the export scan by induction |
| C65 | `IniFileModel.v`: ini files, crash points of a save | composition with C38; every intermediate world is listed |
| C66 | `SlogModel.v`: slog's levels, lines, hex dumps | induction over histories of messages; arithmetic on the length of a dump |
| C67 | `SlogModel.v`: stdout2file / back2stdout of slog and xlog on a model of stdio streams (open, closed, target) | invariant over histories; transition system of threads with an invariant |
| C68 | `FloatModel.v`: str_params doubles and floats; finite IEEE numbers as rationals, correct rounding | rounding lemmas over Q (nearest, leading bit), text and back by induction on digits, composition with C35 |
| C69 | `TpLifeModel.v`: creation, jobs and destruction of a thread pool on the heap of `LifeModel.v`, with failing calls | ownership lists (blocks obtained since the start, up to permutation), rules per heap operation, induction on threads and on the history |
| C70 | `IniLifeModel.v`: list.c and ini_parser.c on the heap of `LifeModel.v`: create, put, get, delete, destroy, with failing allocations | ownership lists up to permutation, one lemma per list and parser function (fold over a representation predicate), induction on the history against the plain lists of `IniLifeSpec.v` |
| C71 | `MpStatsModel.v`: the eight snprintf lines of mplite_print_stats over the counters of `MpliteModel.v` | tally of the history (`MpStatsSpec.v`), one lemma per pool function for the six counters, induction on the history; lines through snprintf_short and decimal | |
| C72 | `XlogMtModel.v`: setters, getters and records as threads, step by step where another thread can interfere (the three reads of the level test, the mutex, the setting and its cached bits, each output), mutex taken as correct | one invariant over all schedules (`XlogMtProof2/3.v`): who is inside the lock, cached bits still to write, outputs still to come; `XlogMtSpec.v` states whole records and calls on the history; safety from C43, progress, refutations by runs and by an invariant of the waiting thread | sequentially consistent accesses; log2android |
| C73 | `RbMtModel.v`: RingBuffer_write/read/peek/discard/available_* and fixed_msg_queue push/pop as two threads; one step per access to a shared counter or to a byte of the data area | one invariant over all schedules (`RbMtProof*.v`): counters are the numbers of published and taken bytes mod 2^32, published bytes lie at their places, each thread's progress; answers stated on the log in `RbMtSpec.v` (value of the sequential ring at one moment of the call), stream and message order, step bounds by a measure; refutation of clear by a run | sequentially consistent memory |
| C74 | `LockModel.v`: threads calling methods that run step by step, with the object's lock held or not; `LockObjModel.v`: the methods of auto_cover_buf and hashmap in steps (one per access to the shared object) | generic theorem (`LockProof.v`): methods that hold the lock from beginning to end are linearizable (`LockSpec.v`), never fault and go on; run alone each method is the one of the sequential model (`LockObjProof.v`), so C09/C13-C15 give the legal results; refutations of hashmap_size, unlocked use and re-entrant callbacks by runs, with a sound search over all linearizations | the user's lock is a correct non-recursive mutex |
| C75 | `AlMtModel.v`: threads inside lcu_malloc/calloc/realloc/free and the leak check with tracking on; one step per map call, per access to a record, per canary | invariant with a ghost claim (owner, size, stage) for each block (`AlMtProof.v`–`AlMtProof4.v`); `during` induction for realloc; refutations by runs | the map's calls are atomic (C74); calloc of a record and hashmap_put succeed (C39 has the failures); one order of memory accesses |
| C76 | `IniFloatModel.v`: ini_parser_get_double, get_float over `IniModel.v` and `FloatModel.v` | rounding gives a number of the format at least as near as any other (`IniFloatProof.v`), composed with C37's get; double rounding of str_params_get_float by computation | as C68: finite IEEE numbers as rationals, decimal notation only |
| C77 | `MpMtModel.v`: mplite.c's calls access by access, with the lock of mplite_setlock, any number of threads, the users' writes between any two accesses | a section run from the state in which it began ends where the disturbed one ends (`wp`, `sim`, `meet` in `MpMtProof.v`: a section touches no byte of a block it was not given); each section computes what the sequential functions of C26-C28 compute (`MpMtProof2-4.v`); invariant over all steps (`MpMtProof5-7.v`); calls return (`MpMtProof8.v`) | the lock is a correct mutex; sequentially consistent steps; counters in one step; mplite_print_stats left out |
| C78 | `RgMtModel.v`: ring_buf.c by one writer and one reader thread, every access to the other's offset and every byte copied one step | invariant (`RgMtProof.v`): the bytes published are a list S, k of them taken; both offsets are these counts modulo the size, the bytes between k and the end of S lie in the data area at their places; a decision taken on an old offset of the other thread stays valid since free room and stored bytes only grow; every event of the log is checked against the sequential ring at a moment inside the call; step bounds by a measure; clear refuted by a run |
| C79 | `RgTsoModel.v`: C78's threads with a store buffer each (first in first out, or, with a flag, overtaking), forwarding of the own offset, barriers as events | C78's invariant with two more counts: p bytes published in memory, q taken as memory says; `good` describes the buffered stores one by one: byte stores go to places that are neither published nor unread, an offset store only publishes bytes already in memory before it; refutations by runs |
| C80 | `RbTsoModel.v`: C73's threads with a store buffer each (as C79), forwarding of the own 32-bit counter, barriers as events | C73's invariant with C79's two extra counts and `good` over the buffered stores, counters modulo 2^32; messages from the stream by cutting it into pieces of the message size; refutations by runs |
| C81 | `MqTsoModel.v`: C07's producer and consumer with a store buffer each (as C79), forwarding of the own counter, barriers as events | C07's invariant with the published count p and the released count q, `good` over the buffered stores, published counts only at a message boundary or after a header (`bnd`), so a pop that sees 5 bytes sees the whole message; refutations by runs |
| C82 | `LogCrashModel.v`: C44's machine with a second file system for what the system has received; stdio hands over any part of the pending output at any time, fclose is a step of its own, every state is a crash point | erasure to C44 plus an invariant relating printed and received bytes per file; refutations by runs |
| C83 | `HdTsoModel.v`: the handler of C29 over the x86-TSO queue of C81, with the exit flag stored late too; semaphore calls, thread end and join are the barriers | the invariant of C29 plus what each barrier publishes (a message counted by the semaphore is in memory); a ranking for the polling bound; a lag of at most one message between what the worker took and what its last barrier published (the full answer); played runs for the refuted claims |
| C84 | `McsTsoModel.v`: the lock functions of C45 with their plain stores in per-thread buffers, and data words accessed under the lock | simulation: every run is matched by a run of the machine of C45 in which a store happens when it reaches memory, so the invariant of C45 carries over; on top of it, reads through the holder's buffer equal the latest write |
| C85 | `FhTsoModel.v`: the handler of C30 with per-thread store buffers: data bytes, in and min_valid_token of the client, out and the flag of the worker, the flag of the destroyer | invariant: what the client's buffer will leave in memory, where its pending bytes lie, pending tokens increase; a push drains before it returns success, so a clear is in memory by then |

Not expressible in the model: real time (sleep lengths), OS thread creation, the file system beyond byte lists,
compiler/CPU memory ordering, locale. Claims touching these are about the logic part only.

Not modelled at all: test programs (`test/`), third-party-like headers (`uthash`-style macros are not used by the modelled code),
dynamic library loading, terminal and Android specific branches of the loggers, `slog` output formatting macros.

## 5. Findings (each backed by a `_refuted` theorem unless marked (*), which were only read)

* `RingBuffer_create(2)` returns NULL; `RingBuffer_create` and `RingBuffer_create_with_mem` for sizes above 2^30
  (other than 2^31) shift a signed int out of range (C04). `fixed_msg_queue` always holds fewer than `max_msg_capacity` messages,
  100x1 accepts nothing (C08); `one*cap` wraps in 32 bits (*).
* `msg_queue_pop` does not report the size on success (C06); `msg_queue_destroy` dereferences NULL when the handle is NULL (C49).
* autocover: old positions alias instead of COVERED, end position inconsistent, oversized write aborts (C09).
* `integer_is_power_of_two(1)` is false, `integer_rounddown_pow_of_two` above 2^31 is 0 (C18).
* base64 encoder refuses 0 and 1 byte (C11). URL coding of the empty string returns -1 (C25).
* `strreplace` with an empty pattern never returns (C20); `strnutf8len` reads one byte too many (C21); `strtrim` forms s-1 on the empty string (*).
* `str_char2hex`: documented size loses a digit, truncation writes outside (C22); hence hex logs of 171 bytes and more overrun a stack buffer (C43).
* `array`: size_t overflow of es*cap, `array_append_value` over-reads for es > 4 (C10).
* `stringbuilder_appendf` with a formatting error drops a character or writes out of bounds; `appendnstr` does not clamp (C23).
* hashmap: foreach stop only leaves the bucket (C15); put/remove return already freed values (C14 note);
  hash functions rely on signed overflow (C46).
* `list_foreach` is not safe when the callback removes the next element (C16).
* `str_params`: freed-but-stored pair when growth fails, get_str returns 0, get_int truncates (C35); partial text on allocation failure, leak of repeated keys (C36).
* `mplite_init` with min_alloc > 2^30 (C26); MPLITE_DEBUG memset size and unlocked size reads (*).
* thpool: second waiter not signalled (C32), free while the last worker still has to unlock (C47), queued jobs dropped (C47), pool without workers (C31).
* handlers: messages above 2^30 bytes, loss on malloc failure (C29); one delivery after clear (C30).
* `time_util`: after 2038, negative times, local time before the epoch (C33); cache at epoch second 0 (C34).
* `file_util`: several slash cases, unterminated paths, 256-byte path in mkdirs (C41), >= 2^31 requests (C42), long lines (C48).
* allocation tracker: ignored map failure, size wraps, use across init/uninit (C39); realloc loses content with the tracker off (C40).
* ini: dangling cache after deleting the newest section, long names and values, NULL section, truncation, foreach break (C37); objects that do not survive dump/parse (C38).
* xlog: long function names, trigger level index, tid modulo 10^5, INT_MIN (C43). file logger: same-millisecond names truncate, silent losses, huge records (C44).
* MCS lock: late write to a released node, NULL dereference on reuse, CreateEvent failure (C45).
* Life cycles: `file_logger_init` dereferences NULL if the path cannot be copied; a handler is returned without its semaphore (C49).
* Windows layer: `pthread_cond_init` leaves its counters unset, a later signal lets newer waiters take the wake-up of an earlier broadcast (C50);
  a reader asking again behind a waiting writer blocks for ever (C51); second join reads freed memory (C52); static mutex destroyed or
  unlocked before use is dereferenced, `pthread_rwlock_init` refuses a zeroed variable (C53); `sem_open` without O_CREAT creates,
  deadlines over 2^32 ms count as passed, `sem_getvalue` disturbs others (C54).
* Dates from year 10000 on, foreign locales (C55). Clocks: 2038 on Windows, first-call race through NULL, 3.58 MHz timers, daylight saving changes (C56).
* Initialisation: results of the lock creations are ignored, two threads initialising at once, `portable_mutex_unlock` on NULL (C57).
* Pausing: a resume overtaking a signal is lost, the flag is shared by all pools (C58).

* Directory layer: see the `_refuted` theorems of C59 (`img0` before `img`, bytes from 128 on), C60 (rewind after a failed seek, hash
  collisions, pattern race), C62 (a dangling link hides the rest). dlfcn: one close of two local opens (C63), slot past the import table (C64).
* Ini files: a failing save has emptied the file and leaks it, short writes count as success, no atomic replacement (C65).
* slog: a hex dump of 85 bytes loses its last digit, 86 or more overrun the stack (C66).
* Redirected stdout: going back closes/uses a closed stream (undefined in ISO C), a pipe or file is not restored, a failing redirection loses all output (C67).
* str_params: a double of at most 5e-11 is read back as 0, one of at least 1e31 as a fifth of itself or less (C68).
* thpool: thpool_init never returns when a thread structure cannot be allocated, is undefined when pthread_create fails; on the Windows layer ten objects are lost per pool (C69).
* ini_parser: a section whose node cannot be allocated loses its list; after deleting the section created last every later operation reads freed memory (C70).

## 6. Assumptions report

`Print Assumptions` stands beneath each property theorem (or at the end of its file); every one prints
"Closed under the global context" (no axioms, no section variables). `vcheck` lists seven `library_axioms` of
`Coq.ssr.ssrunder`, a module loaded by the standard library's `lia`/ssreflect plumbing; no theorem here depends on them.
No `Admitted`, no own axioms, no functors or module types, no plugin beyond the standard tactics.
