{"id": "C01", "title": "Bitmap reads back the last write", "statement": "After any sequence of set / clear / reset calls on a bitmap of n bits, reading bit i<n returns 1 exactly when the last call that affected bit i was a set; calls with an index >= n change nothing; and no call with an in-range index touches a byte outside the bitmap's array.", "quantifier": "every bitmap size 1..255, every operation sequence, every index", "why_tests_cant": "the state space (2^255 bitmaps, unbounded histories) cannot be enumerated; aliasing between bits in one byte shows only for particular index pairs", "anchors": ["lib/bitmap.c: bitmap_create, bitmap_set, bitmap_clear, bitmap_reset, bitmap_get"]}
{"id": "C02", "title": "First-zero search finds the smallest free id", "statement": "Searching a bitmap for a zero bit returns the smallest clear index below the bitmap's size, and -1 exactly when every bit below the size is set.", "quantifier": "every bitmap of every size, every content", "why_tests_cant": "a wrong boundary at byte edges or in the tail bits only shows for specific contents out of 2^255", "anchors": ["lib/bitmap.c: bitmap_find_first_zero_bit"]}
{"id": "C03", "title": "A live handle names exactly its own object", "statement": "For aosl_ref_t, aosl_timer_t and aosl_mpq_t handles: in every history of creates, deletes and final releases, two objects that are alive at once never have the same handle, a lookup of a handle returns the object it was issued for or fails, and a handle whose object was deleted stops resolving at once and stays unresolvable until its slot has been re-issued 65535 times.", "quantifier": "every sequence of create / delete / release operations of any length, every handle value", "why_tests_cant": "needs every history, including slot reuse after many thousands of create/destroy pairs", "anchors": ["kernel/refobj.c: get_unused_refobj_id, __refobj_id_install, __refobj_id_uninstall, __refobj_get, __put_unused_refobj_id", "kernel/timer.c: get_unused_timer_id, __timer_id_install, timer_get, __put_unused_timer_id", "kernel/mpq.c: get_unused_mpq_id, __mpq_id_install, __mpq_get, __put_unused_mpq_id"]}
{"id": "C04", "title": "Object creation succeeds up to the advertised maximum", "statement": "Creating a reference object / timer / multiplex queue fails (other than for lack of memory) only when the documented maximum number of objects (20480 / 20480 / 2048) is alive, and the id table grows as needed before that. (The code violates this: growth to 256 entries is truncated to 0 by an 8 bit size, so the 249th live object is refused.)", "quantifier": "every history of creates and releases, with memory allocation succeeding", "why_tests_cant": "the limit depends on the whole history; tests stop at a handful of live objects", "anchors": ["kernel/refobj.c: get_unused_refobj_id", "kernel/timer.c: get_unused_timer_id", "kernel/mpq.c: get_unused_mpq_id", "lib/bitmap.c: bitmap_create"]}
{"id": "C05", "title": "Red-black tree is an ordered multiset", "statement": "After any sequence of insertions and removals, an in-order walk of the tree lists exactly the elements inserted and not yet removed, in non-decreasing order, equal elements in insertion order; the element counter equals their number; find returns an element equal to the key exactly when one is present; remove deletes exactly one such element.", "quantifier": "every finite sequence of insert / find / remove with any total preorder comparison", "why_tests_cant": "rebalancing cases depend on the tree's shape; unbounded histories", "anchors": ["lib/rbtree.c: aosl_rb_insert_color, aosl_rb_erase, __rb_erase_color, aosl_vfind_rb_links, aosl_find_rb_links, aosl_vfind_rb_node, aosl_find_rb_node, aosl_rb_insert_node, aosl_rb_remove"]}
{"id": "C06", "title": "Red-black tree stays balanced", "statement": "After any sequence of insertions and removals no red node has a red child, every root-to-leaf path has the same number of black nodes, and hence the height is at most 2*log2(n+1), so every operation takes a logarithmic number of steps.", "quantifier": "every finite sequence of insertions and removals", "why_tests_cant": "the bound must hold at every size; worst-case shapes are rare in random tests", "anchors": ["lib/rbtree.c: aosl_rb_insert_color, __rb_erase_color, aosl_rb_erase"]}
{"id": "C07", "title": "Tree iteration and traversal visit everything once, in order", "statement": "first / last / next / prev enumerate exactly the in-order sequence forwards and backwards; the three recursive traversals call the callback once per node in pre-, in- and post-order until it asks to stop, after which it is not called again.", "quantifier": "every tree, every callback", "why_tests_cant": "parent-pointer walks fail only on particular shapes", "anchors": ["lib/rbtree.c: aosl_rb_first, aosl_rb_last, aosl_rb_next, aosl_rb_prev, aosl_rb_traverse_dlr, aosl_rb_traverse_ldr, aosl_rb_traverse_lrd"]}
{"id": "C08", "title": "Packet buffer operations stay inside the buffer", "statement": "Every psb put / get / peek / push / pull / reserve with a length that fits an int either fails with an error and leaves the buffer unchanged, or succeeds with headroom + data + tailroom still equal to the buffer size and the returned pointer range inside the buffer; it fails exactly when the room it needs is missing.", "quantifier": "every buffer size, every sequence of operations, every length", "why_tests_cant": "memory safety over all sequences; off-by-one only shows at exact fits", "anchors": ["include/kernel/psbuff.h: psb_put, psb_get, psb_peek, psb_push, psb_pull, psb_reserve", "lib/psbuff.c: aosl_psb_put, aosl_psb_get, aosl_psb_push, aosl_psb_pull, aosl_psb_reserve"]}
{"id": "C09", "title": "Packet buffer is a faithful byte queue", "statement": "Bytes put at the tail are read back by get in the same order and unchanged; push followed by pull of the same length restores the content; headroom operations never change the data bytes; the total length of a chain is the sum of its segments.", "quantifier": "every content, every operation sequence", "why_tests_cant": "content preservation over all sequences and offsets", "anchors": ["include/kernel/psbuff.h", "lib/psbuff.c: aosl_psb_total_len, aosl_psb_reset"]}
{"id": "C10", "title": "Packet buffer length checks hold for every size_t length", "statement": "The bounds of C08 hold for every length a caller can pass (size_t). (The code violates this: lengths are narrowed to 32 bits and push compares as signed int, so a huge length is accepted.)", "quantifier": "every size_t length", "why_tests_cant": "only astronomically large arguments trigger it", "anchors": ["include/kernel/psbuff.h: psb_push, psb_put", "lib/psbuff.c: aosl_psb_push, aosl_psb_put"]}
{"id": "C11", "title": "Marshalling round-trips", "statement": "Marshalling a typed object into a packet buffer chain and unmarshalling the result with the same type description yields an equal object and consumes exactly the bytes produced, however the bytes are split over chain segments.", "quantifier": "every type description (integers, pointers, strings, structs, fixed/variable/dynamic arrays and bytes, nested), every well-formed object, every segmentation", "why_tests_cant": "recursion over all types and values; segment boundaries may fall inside any field", "anchors": ["lib/marshalling.c: _____marshal, _____unmarshal, aosl_marshal, aosl_unmarshal", "lib/marshalling-base-obj.c"]}
{"id": "C12", "title": "Unmarshalling hostile input is safe", "statement": "Unmarshalling any byte sequence whatever terminates with success or an error; it never consumes more bytes than the chain holds, never stores more elements in a bounded array than its declared size, and a strict prefix of a valid message is rejected.", "quantifier": "every byte string, every segmentation, every type description", "why_tests_cant": "all byte strings; truncation at every point", "anchors": ["lib/marshalling.c: _____unmarshal"]}
{"id": "C13", "title": "Dynamic arrays and strings behave like sequences", "statement": "aosl_dynamic_array / string operations act on an abstract sequence: add appends (or extends by n), strcat concatenates, strcpy replaces, compare returns 0 exactly for equal contents of byte arrays; the count stays below the maximum (10240) and never exceeds the capacity (the capacity itself may exceed 10240 by a few elements, because strings and arrays grow in different strides); an append beyond the maximum fails with E2BIG and changes nothing. (Finding: a failing strcpy / copy_data has already released the old content, and appending a string to itself reads freed memory.)", "quantifier": "every sequence of operations and every content", "why_tests_cant": "growth arithmetic over all sizes", "anchors": ["lib/marshalling.c: aosl_dynamic_array_add_elems, aosl_dynamic_string_strcat, aosl_dynamic_string_strcpy, aosl_dynamic_bytes_copy, aosl_dynamic_bytes_compare"]}
{"id": "C14", "title": "Due timers fire in order of expiry", "statement": "When the timer queue of a multiplex queue is run, callbacks are called in non-decreasing order of expiry time, timers armed for the same instant in the order they were armed.", "quantifier": "every set of timers, every sequence of arm/cancel/run, callbacks that arm and cancel timers", "why_tests_cant": "unbounded histories; ties", "anchors": ["kernel/timer.c: __find_timer_prepare, __timer_link_list, __sched_timer, __check_and_run_timers"]}
{"id": "C15", "title": "Timers never fire early, due timers fire, one-shots fire once", "statement": "A timer callback runs only when the current time has reached its expiry; when the timer queue is run every timer due at that time is fired; a one-shot timer that is not re-armed fires exactly once.", "quantifier": "every history and every clock value in the non-wrapping range", "why_tests_cant": "all schedules of arming and clock readings", "anchors": ["kernel/timer.c: __check_and_run_timers, __sched_timer, aosl_mpq_set_oneshot_timer"]}
{"id": "C16", "title": "A cancelled or killed timer does not fire", "statement": "After cancel or kill of a timer returns, its callback is not called until it is scheduled again; other timers are unaffected.", "quantifier": "every timer queue state and every later run, including cancels issued from inside callbacks", "why_tests_cant": "cancel may race with positions anywhere in the queue", "anchors": ["kernel/timer.c: __cancel_timer_on_q, __kill_timer_on_q, __timer_unlink_list"]}
{"id": "C17", "title": "Periodic timers keep their period", "statement": "Each firing of a periodic timer re-arms it no earlier than one interval after its previous expiry, compensating the lateness of the current run, so firings stay aligned to the original schedule when the callback dispatch is not delayed.", "quantifier": "every interval, every lateness, every clock reading", "why_tests_cant": "arithmetic over all 64 bit times", "anchors": ["kernel/timer.c: __check_and_run_timers, __resched_timer"]}
{"id": "C18", "title": "A one-shot expiry of zero is refused on every entry point", "statement": "Asking for a one-shot timer with absolute expiry 0 is rejected. (The code violates this for the on_q variants: the timer is stored with expiry 2^64-1, sorts last, and counts as already expired once it reaches the front.)", "quantifier": "both API variants, every clock value", "why_tests_cant": "special value of one variant only", "anchors": ["kernel/timer.c: aosl_mpq_set_oneshot_timer, aosl_mpq_set_oneshot_timer_on_q, __sched_timer, __check_and_run_timers"]}
{"id": "C19", "title": "Queued functions run in order, exactly once", "statement": "Functions accepted by a multiplex queue are executed by its thread in the order they were accepted, none lost, duplicated or invented, under every interleaving of any number of producers with the consumer.", "quantifier": "any number of threads, every interleaving, every number of requests", "why_tests_cant": "schedules cannot be enumerated by running", "anchors": ["kernel/mpq.c: ____add_f, __check_and_call_funcs, __process_fo"]}
{"id": "C20", "title": "The queue limit is respected", "statement": "A multiplex queue never holds more than its configured maximum of ordinary pending requests; with the non-blocking flag a request is refused with EAGAIN exactly when the maximum is reached, and a refused request is never executed.", "quantifier": "every interleaving of producers and consumer, every max", "why_tests_cant": "boundary under concurrency", "anchors": ["kernel/mpq.c: ____add_f, __add_or_invoke_f"]}
{"id": "C21", "title": "A synchronous call returns only after its function ran", "statement": "aosl_mpq_call returns success only after the target thread executed the function exactly once; called on the queue's own thread it executes the function inline before returning.", "quantifier": "every interleaving", "why_tests_cant": "visible only under adverse scheduling", "anchors": ["kernel/mpq.c: ____add_f, __add_or_invoke_f, __process_fo"]}
{"id": "C22", "title": "Destroying a queue loses no accepted request", "statement": "Once a request was accepted, destroying the queue still executes it exactly once before a waiter for the destruction is released; after destruction has completed no function of that queue runs.", "quantifier": "every interleaving of producers, the queue thread and the destroyer", "why_tests_cant": "race between last references and termination", "anchors": ["kernel/mpq.c: __mp_queue_poll_loop, __q_wait_destroy, ____add_f, __mpq_destroy"]}
{"id": "C23", "title": "The completion callback is delivered exactly once", "statement": "A request queued with a completion queue results, after its first execution, in exactly one further invocation: on the completion queue if that still exists, otherwise a release-only invocation in place; never both and never more than one.", "quantifier": "every state of the completion queue and every reference state", "why_tests_cant": "depends on the completion queue dying at any moment", "anchors": ["kernel/mpq.c: __invoke_f, mpq_invoke_refobj_get, mpq_invoke_refobj_put"]}
{"id": "C24", "title": "A producer blocked on a full queue is always woken", "statement": "Whenever a producer is asleep waiting for space, the queue is full or a wake-up is already on its way, so no producer sleeps forever while space is available.", "quantifier": "every interleaving, any number of producers", "why_tests_cant": "lost wake-ups need one exact interleaving", "anchors": ["kernel/mpq.c: ____add_f, __check_and_call_funcs"]}
{"id": "C25", "title": "The queue thread never sleeps on pending work", "statement": "Whenever the queue thread is blocked waiting for events without a pending wake-up byte, no request accepted before it blocked is waiting (the kick protocol loses no wake-up).", "quantifier": "every interleaving of producers with the poll loop (sequentially consistent memory)", "why_tests_cant": "lost wake-ups need one exact interleaving", "anchors": ["kernel/osmp.c: os_poll_dispatch", "kernel/mpq.c: mp_kick_q, os_mp_kick, os_drain_sigp"]}
{"id": "C26", "title": "Reader/writer lock excludes and never forgets a waiter", "statement": "At any time the raw read-write lock is held by readers only or by a single writer; when the lock is free no waiter is left sleeping without a pending wake-up.", "quantifier": "any number of threads, every interleaving of lock/unlock/downgrade", "why_tests_cant": "interleavings of atomic counters", "anchors": ["lib/rwlockimpl.c", "include/kernel/rwlock-generic.h"]}
{"id": "C27", "title": "A reference object is destroyed exactly once, after its last user", "statement": "The destructor of a reference object runs at most once, only after a deleting aosl_ref_destroy was called and while no callback of the object runs; once all calls have returned it has run exactly once if such a call was made, and its memory and its id were given back. The id is recycled only after the destructor returned, freed memory is never touched, a stale reference never finds another object (until 65535 creations later), and with the caller-free option the destructor runs on the thread that called aosl_ref_destroy.", "quantifier": "any number of threads and objects, every interleaving and nesting of hold/read/write, queue functions, creation and destruction", "why_tests_cant": "lifetime races", "anchors": ["kernel/refobj.c: refobj_free, __refobj_get, __refobj_put, aosl_ref_destroy"]}
{"id": "C28", "title": "No live callback after destroy", "statement": "Once aosl_ref_destroy has returned 0 or -EPERM, no queued function, aosl_ref_read or aosl_ref_write callback starts with the live object, and at that time none is running (for an object not created modify-async). After a deleting destroy no reference finds the object any more. Each queued function still runs exactly once, with the live object or with the release-only marker, the marker only for a destroyed object or an unknown id.", "quantifier": "any number of threads and objects, every interleaving and nesting of destroy with queued functions and operations", "why_tests_cant": "race between destroy and dispatch", "anchors": ["kernel/refobj.c: aosl_ref_destroy, refobj_rdlock", "kernel/mpq.c: mpq_invoke_refobj_get"]}
{"id": "C29", "title": "Reference-object locking is a read/write lock with recursion rules", "statement": "While a thread runs an aosl_ref_write callback of an object, no other thread runs a read, write or (not modify-async) queue callback of it. Nested reads of a recursive object start without waiting, and when no call is under way nothing is left locked. An operation that does not return 0 returns -EPERM, and only on a destroyed object; a return of 0 means the callback ran. The process is aborted only by a call made from inside a locked callback of the same object.", "quantifier": "any number of threads and objects, every interleaving and nesting", "why_tests_cant": "all nestings and interleavings", "anchors": ["kernel/refobj.c: refobj_rdlock, refobj_wrlock, __refobj_op_argv"]}
{"id": "C30", "title": "Thread-local keys are isolated", "statement": "A value set under a key by one thread is returned to that thread only, for that key only, until overwritten or the key is deleted; a newly created key reads NULL in every thread, even when its slot was used by a deleted key before.", "quantifier": "every number of threads, every history of key creation, deletion and set", "why_tests_cant": "slot reuse histories", "anchors": ["lib/tls.c: k_tls_key_create, k_tls_key_set, k_tls_key_get, k_tls_key_delete"]}
{"id": "C31", "title": "Memory accounting is exact", "statement": "The reported amount of used memory equals the sum of sizes of live tracked blocks plus their bookkeeping overhead; after freeing everything it is zero.", "quantifier": "every history of malloc / calloc / realloc / free", "why_tests_cant": "unbounded histories", "anchors": ["mm/mm.c"]}
{"id": "C32", "title": "Queued writes are sent completely and in order", "statement": "For a file descriptor added to a queue, the bytes handed to the write function over time are exactly the concatenation of the successfully accepted writes, in order, without loss or duplication, for every pattern of partial writes and would-block results; buffered bytes never exceed 128 KB.", "quantifier": "every sequence of writes, every pattern of partial write results", "why_tests_cant": "all partial-write patterns", "anchors": ["kernel/iofd.c: ____write, __iofd_write_data", "include/kernel/iofd.h: w_queue_add, w_queue_remove_head, w_queue_space"]}
{"id": "C33", "title": "Packet framing is independent of read chunking", "statement": "The sequence of packets delivered to the data callback depends only on the byte stream and the packet checker, not on how the stream was split into reads; concatenated packets are a prefix of the stream.", "quantifier": "every byte stream, every chunking, every packet checker", "why_tests_cant": "all chunkings of all streams", "anchors": ["kernel/iofd.c: __iofd_read_data", "include/kernel/iofd.h: __iofd_better_move_buffer"]}
{"id": "C34", "title": "Queue pool respects its size and runs the tail function once", "statement": "A queue pool never has more queues than its configured size; a request is dispatched to a queue with the fewest pending requests; a pool-wide tail request runs its function exactly once, after every queue of the pool passed its marker.", "quantifier": "every history and every interleaving", "why_tests_cant": "all pool states and interleavings", "anchors": ["kernel/mpqp.c: __mpqp_find_best_q_locked, __mpqp_best_q_get, __pool_create_add_mpq_locked, aosl_mpqp_pool_tail_queue"]}
{"id": "C35", "title": "Library constructor / destructor calls are counted", "statement": "The library is initialised exactly when at least one unmatched constructor call is outstanding; unmatched destructor calls are harmless; initialisation and finalisation alternate.", "quantifier": "every sequence and interleaving of aosl_ctor / aosl_dtor calls", "why_tests_cant": "unbounded histories and interleavings", "anchors": ["kernel/mpq.c: aosl_ctor, aosl_dtor, aosl_main_start"]}
{"id": "C36", "title": "Error values survive pointer encoding", "statement": "Encoding an error number in a pointer and decoding it gives the number back; no valid address below the top 4095 bytes is mistaken for an error; a failing API call returns -1 with errno set to the positive code and a succeeding one returns the value unchanged.", "quantifier": "every error number 1..4095, every pointer, every return value", "why_tests_cant": "all pointer values", "anchors": ["include/kernel/err.h: ERR_PTR, PTR_ERR, IS_ERR, return_err"]}
{"id": "C37", "title": "Internet address text conversion round-trips", "statement": "Printing any IPv4 or IPv6 address and parsing the text gives the same address back; the IPv4 parser accepts exactly the canonical dotted quads; the printer needs at most 16 / 46 bytes and reports ENOSPC exactly when the buffer (of less than 2^31 bytes) is smaller than the text plus terminator; the IPv6 parser accepts exactly the RFC 4291 texts and the printer gives the canonical one.", "quantifier": "all 2^32 and 2^128 addresses, every text", "why_tests_cant": "2^128 addresses; all strings", "anchors": ["net/inet.c: inet_ntop4, inet_ntop6, inet_pton4, inet_pton6"]}
{"id": "C38", "title": "IPv4 / IPv6 socket address translation round-trips", "statement": "Translating an IPv4 socket address to IPv6 (with the queue's prefix or the NAT64 prefix) and back, with the prefix unchanged, gives the same address and port; of the IPv6 addresses exactly the mapped, NAT64 and prefix ones are translated back; the prefix is the last suitable one set; connecting or sending on a v4/v6 socket pair uses a socket of the family of the (translated) address and fails exactly when there is none.", "quantifier": "all addresses, ports and prefixes", "why_tests_cant": "2^128 addresses", "anchors": ["net/ipv6.c: ipv6_sk_addr_from_ipv4, ipv6_sk_addr_to_ipv4, __ipv6_addr_v4_compatible"]}
{"id": "C39", "title": "Wrap-around comparisons order nearby values", "statement": "For values less than half the range apart the wrapping comparisons agree with the true order across wrap-around, exactly one of before / equal / after holds, and the distance is symmetric and equals the true distance.", "quantifier": "all pairs of 16, 32 and 64 bit values", "why_tests_cant": "2^128 pairs", "anchors": ["include/api/aosl_integer_wrappings.h"]}
{"id": "C40", "title": "Byte order conversions are involutions", "statement": "Swapping byte order twice is the identity, host-to-network of a value stores its most significant byte first, and in-memory swapping reverses each element's bytes and nothing else.", "quantifier": "all 16, 32 and 64 bit values, all buffers", "why_tests_cant": "2^64 values", "anchors": ["include/kernel/swab.h", "lib/byteswap.c"]}
{"id": "C41", "title": "Signalling a condition variable wakes a waiter per signal", "statement": "If n threads wait on a condition variable and it is signalled k<=n times, k of them are woken. (The semaphore based implementation violates this: two signals can go to the same waiter.)", "quantifier": "every interleaving", "why_tests_cant": "needs one exact interleaving", "anchors": ["lib/cond.c: k_cond_signal, k_cond_wait, k_cond_broadcast"]}
{"id": "C42", "title": "Doubly linked lists are sequences", "statement": "The list primitives (add, add_tail, del, move, splice, remove_head, remove_tail) transform the represented sequence as named, keep next and prev mutually inverse, and leave every other list unchanged.", "quantifier": "every list, every aliasing of nodes", "why_tests_cant": "pointer structure over all shapes", "anchors": ["include/api/aosl_list.h"]}
{"id": "C43", "title": "Arguments reach the target queue unchanged", "statement": "Each on_q socket / fd registration delivers exactly the caller's extra arguments, in order, to the callbacks on the target queue. (The code violates this for connect_on_q.)", "quantifier": "every argument count 0..64 and all values", "why_tests_cant": "every argument count; reading past the end may go unnoticed", "anchors": ["net/sk_utils.c: __mpq_connect_on_q_args, ____target_q_connect, aosl_mpq_listen_on_q, aosl_mpq_add_dgram_socket_on_q, aosl_mpq_add_stream_socket_on_q", "kernel/iofd.c: aosl_mpq_add_fd_on_q"]}
{"id": "C44", "title": "Network change events tell the truth", "statement": "The sequence of network events delivered to the subscriber determines the sequence of default-route states: UP exactly on down-to-up with the same or no earlier route, UP_CHANGED on down-to-up with a different one, SWITCH on a change while up, DOWN on up-to-down, and nothing when nothing changed.", "quantifier": "every sequence of observed default routes", "why_tests_cant": "unbounded observation sequences", "anchors": ["net/route.c: check_report_def_rt_change_event"]}
{"id": "C45", "title": "Interface cache is a map", "statement": "The network interface cache behaves as a finite map from interface index to the last reported name and type; deletion removes exactly that entry.", "quantifier": "every sequence of updates and deletions", "why_tests_cant": "hash collisions and free-list reuse over all histories", "anchors": ["net/netifs.c: update_netifs, netif_by_index"]}
{"id": "C46", "title": "Buffers attached by the caller stay the caller's", "statement": "A buffer the caller attached to a packet buffer is never freed by the library: detaching it only forgets it (as documented) and freeing the packet buffer leaves it alone. (The code violates this for packet buffers that were created with an internal buffer.)", "quantifier": "every sequence of create / attach / detach / free", "why_tests_cant": "ownership mistakes show only in particular call orders and then as heap corruption far away", "anchors": ["lib/psbuff.c: alloc_user_psb, alloc_psb, free_psb, psb_attach_buf, psb_detach_buf"]}
{"id": "C47", "title": "The argument destructor of a timer runs exactly once", "statement": "For every timer created on a queue, the destructor given for its arguments is called at most once, never while the timer can still be used, and has been called once the timer was killed (or the queue destroyed) and no thread holds a reference.", "quantifier": "every history of creations, kills, reschedules, references taken and dropped by other threads, and callbacks that kill their own timer", "why_tests_cant": "The number of interleavings of kill, reference drops and callbacks is unbounded; a test observes one.", "anchors": ["kernel/timer.c:__free_timer", "include/kernel/timer.h:__timer_put", "kernel/timer.c:__kill_timer_on_q", "kernel/timer.c:mpq_fini_timers"]}
{"id": "C48", "title": "A queue's memory outlives every call that uses it", "statement": "No queue call in progress, no function running on the queue and no callback of it ever touches a queue whose memory has been released: the memory is released only when every call that obtained the queue from its id has given it back.", "quantifier": "any number of threads calling queue / call / destroy / wait on any queues, every interleaving with the destruction of the queue", "why_tests_cant": "a use after release needs a particular interleaving of a caller holding a reference with the destruction; schedules cannot be enumerated by tests", "anchors": ["kernel/mpq.c:__mpq_get", "kernel/mpq.c:__q_wait_destroy", "kernel/mpq.c:__add_func_args_qid"]}
{"id": "C49", "title": "The lock never touches the stack of a returned call", "statement": "Every waiter of the read-write lock sleeps on an event in the stack frame of its lock call; after that call has returned, nobody writes to that event.", "quantifier": "any number of threads, every interleaving", "why_tests_cant": "a use-after-return that needs one particular preemption point", "anchors": ["lib/rwlockimpl.c", "kernel/thread.c"]}
{"id": "C50", "title": "A listening socket keeps accepting", "statement": "A listening socket added to a queue passes every accepted connection to the user's callback once and stays open until the user closes it: running out of waiting connections is not an error.", "quantifier": "every number of waiting connections, every schedule of readability events", "why_tests_cant": "holds only over unbounded series of connections and events", "anchors": ["net/sk_utils.c: __default_accept", "kernel/iofd.c: __iofd_read_data"]}
{"id": "C51", "title": "Event objects: set, pulse and wait", "statement": "While an event is set, every thread inside a wait can return and every new wait returns at once, until a reset (or, in fact, a pulse); a pulse is kept until it has released a waiter; a wait returns 0 only if the event was set or pulsed when it was called or since, and a timeout only after its own timeout; a pulse wakes all waiters and then resets, and a set event stays set until reset (as documented: both refuted).", "quantifier": "every interleaving of any number of threads setting, pulsing, resetting and waiting, with timeouts passing at any time", "why_tests_cant": "lost and doubled wake-ups depend on the interleaving of three or more threads", "anchors": ["include/api/aosl_thread.h: aosl_event_set, aosl_event_pulse, aosl_event_timedwait", "kernel/thread.c: k_event_set, k_event_pulse, k_event_wait, k_event_timedwait, k_event_reset"]}
{"id": "C52", "title": "Static locks initialise themselves exactly once and exclude; trylock results", "statement": "A statically declared lock is initialised at most once however many threads race on its first use, no thread uses it before it is initialised, aosl_static_lock_init returns 0 only when it is initialised, and two threads never hold it at once; trylock returns 0 if and only if the lock was acquired and <0 if it is held (as documented: refuted).", "quantifier": "every interleaving of any number of threads using the lock, including failures of the HAL's initialisation", "why_tests_cant": "the race on the first use happens once per process and has a window of a few instructions", "anchors": ["include/api/aosl_thread.h: aosl_static_lock_lock, aosl_static_lock_trylock, aosl_lock_trylock", "kernel/thread.c: k_static_lock_init, k_static_lock_lock, k_static_lock_trylock, k_lock_trylock"]}
{"id": "C53", "title": "Readiness is reported exactly", "statement": "Each round of a queue's loop that uses poll() or select() hands on exactly the readiness the system reported: the wake-up pipe and every ready descriptor, once, with just what is ready, in order and up to 64 per round; a reported descriptor stops waiting for just what was reported, every other descriptor keeps waiting; a hang-up is handled only after the data reported with it. (Violated beyond that: more than 1024 descriptors abort the process, the descriptors behind 64 busy ones starve, a bare hang-up or error is never reported by poll()/select(), an error reported by epoll drops the data.)", "quantifier": "every list of descriptors, every answer of poll() and select()", "why_tests_cant": "the interesting cases need particular sets of hundreds of descriptors ready at once", "anchors": ["kernel/poll_mp.c: os_mp_wait_poll", "kernel/select_mp.c: os_mp_wait_select", "kernel/et_mp.c: os_mp_dispatch_epoll", "kernel/osmp.c: os_mp_wait"]}
{"id": "C54", "title": "A descriptor lives as long as it is used, and ends when it is closed", "statement": "The memory of a descriptor added to a queue is never used after it is released; it is released exactly once, when it was closed or deleted and no call or callback on any thread uses it any more; it is closed or deleted at most once; after aosl_close has taken effect no callback is started for it; callbacks run only on its queue's thread; while it is attached it is found under its number and adding the number again is refused. (Violated: callbacks go on after aosl_mpq_del_fd in a data callback and after aosl_close in the event callback; a concurrent second delete can take a newer descriptor with the same number out of the table, after which destroying the queue never ends; a stale event reaches a new descriptor on the wrong thread; a failing registration frees an object in use.)", "quantifier": "every interleaving of any number of threads adding, closing, deleting and using descriptors, of event deliveries and of callbacks that do the same", "why_tests_cant": "use after free, leaks and wrong deliveries need particular interleavings of closes, references and number reuse", "anchors": ["kernel/fileobj.c: install_fd, remove_fd, fget, fput", "kernel/iofd.c: __q_del_f, __this_q_close_f, f_event_and_close, __iofd_close, __iofd_del, mpq_fini_iofds", "kernel/poll_mp.c: os_mp_dispatch_poll", "kernel/et_mp.c: os_mp_dispatch_epoll"]}
{"id": "C55", "title": "The default route read from the kernel is the preferred one, and parsing stays in the buffer", "statement": "When the library asks the kernel for the default route of a family, the interface, the gateway and the number of default routes it reports are those of the default route with the smallest metric among all routes the kernel sent, however the kernel splits its answer; change notifications are carried out message by message in order (link added, changed, removed, route changed) up to the end marker; and whatever bytes arrive, nothing outside the received data is read and the loops end.", "quantifier": "every list of routes, links and other messages in every encoding the kernel may choose, every division into datagrams, every previous content of the buffer, every byte string for the safety part", "why_tests_cant": "the answer depends on the machine's routing table, the order and number of routes, the split into datagrams and stale stack bytes; tests see a handful of real tables and never a full buffer", "anchors": ["kernel/rt_monitor.c:parse_rtattrs", "kernel/rt_monitor.c:update_ifinfos", "kernel/rt_monitor.c:__af_get_default_rt", "kernel/rt_monitor.c:__process_rtmsg"]}
{"id": "C56", "title": "Timed waits and sleeps last as long as asked", "statement": "The millisecond tick never goes backwards and counts whole milliseconds; a timed wait that nobody wakes ends with the timeout code and not before its time has passed; a queue waiting for its descriptors is woken for its next timer not before the timer is due and, whatever signals interrupt the wait, at most a millisecond and the system's own delay late; a negative timeout waits for ever; aosl_msleep sleeps at least the time given. (The code violates parts of this: waits of 2^31 ms and more, negative timeouts of the semaphore and condition calls, sleeps of more than 71 minutes, a wall clock that is set, the sign of the timeout code.)", "quantifier": "every time, every timeout, every series of interruptions at any times", "why_tests_cant": "the times at which signals arrive and the size of the timeouts are unbounded; the failing values take weeks to reach", "anchors": ["platform/src/linux/aosl_hal_thread.c: aosl_hal_cond_timedwait, aosl_hal_sem_timedwait", "platform/src/linux/aosl_hal_time.c: aosl_hal_get_tick_ms, aosl_hal_msleep", "platform/src/linux/aosl_hal_iomp.c: aosl_hal_select, aosl_hal_poll, aosl_hal_epoll_wait", "kernel/et_mp.c: os_mp_wait_epoll", "kernel/poll_mp.c: os_mp_wait_poll", "kernel/select_mp.c: os_mp_wait_select", "kernel/time.c: aosl_tick_ms, aosl_msleep"]}
{"id": "C57", "title": "Creating a queue either yields a running queue or leaves nothing behind", "statement": "aosl_mpq_create returns a queue only after its thread has made it and its init callback has run, once, and succeeded; if it fails after the thread was made, fini has run exactly once and aosl_errno is that of the failure; init and fini run at most once each, init first; the new thread never uses the stack frames of the call after it returned; the call returns after a bounded number of steps, whatever the schedule. Thread priorities keep their order. (The code violates neighbouring properties: a thread refused by the system is not noticed and the call hangs, an early failure does not run fini, some failures do not set aosl_errno, the id is read from a queue object that may be gone.)", "quantifier": "every interleaving of the calling and the new thread with spurious wake-ups, every combination of arguments and failures", "why_tests_cant": "a use of a dead stack frame or a lost wake-up needs one particular preemption; failures of the system cannot be provoked at every point", "anchors": ["kernel/thread.c: k_os_thread_entry, k_thread_create", "platform/src/linux/aosl_hal_thread.c: aosl_hal_thread_create, __get_os_priority", "kernel/mpq.c: mpq_thread_entry, __mpq_create, __mpq_create_flags"]}
{"id": "C58", "title": "Only one main queue exists at a time, and it can be started, named and ended reliably", "statement": "Whatever threads call aosl_main_start, aosl_mpq_main, aosl_main_exit, aosl_main_exit_wait and aosl_main_wait concurrently: the init of a main queue is called only after the fini of every earlier main queue has run; a start is refused with EEXIST exactly when a main queue exists or is being started; aosl_mpq_main returns the id of the running main queue; the exit calls end no other queue; a wait that returns 0 returns after fini; atexit is told once.", "quantifier": "All interleavings of any number of threads making these calls, of the creation and destruction of other queues, of failing and succeeding creations and inits, and all values of the id counter.", "why_tests_cant": "The races between starts, exits and the end of the queue, and the state after a failed start or after 32767 created queues, are not reached by tests.", "anchors": ["kernel/mpq.c: aosl_main_start, aosl_mpq_main, aosl_main_exit, aosl_main_exit_wait, aosl_main_wait, mpq_do_wait, mpq_destroy, __q_destroy, __q_wait_destroy"]}
{"id": "C59", "title": "Socket addresses survive the way to and from the system", "statement": "For every IPv4 or IPv6 endpoint (port, address, flow information, scope) the structure and length that bind, connect and sendto give to the system denote exactly that endpoint, and what accept, recvfrom and the socket name query report is exactly the endpoint the system filled in, whatever the caller's structure held before; other families leave the caller's structure alone. aosl_get_sockaddr returns the local address of the socket. (The code violates the last part: it combines the socket's port with an address of the default route's interface, fails for IPv6 sockets after having changed the structure, and follows an uninitialised pointer when getifaddrs fails.)", "quantifier": "all endpoints, all previous contents of the caller's structure, all interface lists", "why_tests_cant": "2^48 IPv4 and 2^208 IPv6 endpoints; interface lists and getifaddrs failures depend on the machine", "anchors": ["platform/src/linux/aosl_hal_socket.c:conv_addr_to_os", "platform/src/linux/aosl_hal_socket.c:conv_addr_to_aosl", "platform/src/linux/aosl_hal_socket.c:aosl_hal_sk_get_local_ip", "net/sk_utils.c:aosl_get_sockaddr"]}
{"id": "C60", "title": "Asynchronous name resolution", "statement": "A call of aosl_tcp/udp_resolve_host_async that returns 0 runs the callback exactly once, with the name, the number of results, the array and the caller's arguments in order; the array then holds the first endpoints of the answer (at most 8, at most the announced number) with the requested port, type and protocol, and the rest of it is untouched; a call that fails never runs the callback and touches nothing. The callback runs on the given queue, or with the free-only marker if that queue is gone. (The code violates parts: the number of entries is cut to 32 bits, 56 to 64 arguments pass the check but always fail, the name is read after the call returned, and every resolved IPv6 address silently becomes the queue's NAT64 prefix.)", "quantifier": "all names, answers of the resolver, arrays, argument vectors, refusals and terminations of pool and queue", "why_tests_cant": "answers, queue deaths and argument counts cannot be enumerated; the callback may run long after", "anchors": ["net/dns.c:vhostbyname_timed_do", "net/dns.c:__resolved_an_addr", "net/dns.c:__queue_resolve_async_reply", "net/dns.c:__prot_resolve_host_async_args", "platform/src/linux/aosl_hal_socket.c:aosl_hal_gethostbyname"]}
{"id": "C61", "title": "A failed descriptor operation is never reported as success", "statement": "Whenever one of the functions that work on a descriptor of another queue (write, send, sendto, close, delete, add, connect, listen, add a datagram or stream socket) returns, a non-negative value is the result of the operation, which has run on the descriptor's queue; -1 means that the operation ran and failed with the errno then set, or that it did not run, with an errno telling why. (The code violates this: write, send, sendto, close, delete and add return +1011 or +1004 when the target queue refuses the request, so a caller takes it for 1011 or 1004 bytes written.)", "quantifier": "all ten functions, all results of the operation, all histories of the fill level of the target queue and of the termination of the caller's own queue", "why_tests_cant": "refusals depend on the fill level of another thread's queue at each time the waiting caller wakes up", "anchors": ["kernel/iofd.c:aosl_write", "kernel/iofd.c:__iofd_close", "kernel/iofd.c:__iofd_del", "kernel/iofd.c:aosl_mpq_add_fd_on_q", "net/sk_utils.c:aosl_send", "net/sk_utils.c:aosl_sendto", "net/sk_utils.c:aosl_mpq_listen_on_q", "kernel/mpq.c:____add_f"]}
{"id": "C62", "title": "Every thread has its own error number", "statement": "Between the start and the end of the library, reading aosl_errno gives the value that the same thread assigned last, or 0 if it has assigned none, whatever other threads do at the same time, also while several of them use it for the first time; no freed memory is touched, and the end of the library returns and frees all memory of the error numbers. Before the start and after the end the use of aosl_errno aborts the process. (The code violates parts: two simultaneous first uses lose an entry, which is then never freed; a thread that gets the id of an ended one inherits its error number; an end concurrent with a use touches freed memory.)", "quantifier": "all interleavings of any number of threads reading and assigning aosl_errno, first uses, thread ends, starts and ends of the library", "why_tests_cant": "the list of cells is changed without a lock: the damage depends on the interleaving of single loads and stores of two threads", "anchors": ["lib/errno.c:aosl_errno_ptr", "lib/errno.c:k_errno_init", "lib/errno.c:k_errno_fini", "include/api/aosl_list.h:aosl_list_add", "include/api/aosl_list.h:aosl_list_remove_head"]}
{"id": "C63", "title": "The system is asked for exactly the readiness the caller wants", "statement": "With epoll, after any history of additions, changes and removals, a wait reports for registered descriptors exactly the events that are ready and were asked for last, errors and hang-ups always; an addition succeeds exactly for unregistered descriptors, a change or removal for registered ones. With poll exactly what is asked for and ready is reported; with select the sets hold exactly the descriptors put in. A wait interrupted by signals any number of times is repeated with exactly the remaining time, a failed wait is reported as negative. (The code violates parts: poll passes uninitialised event masks and drops errors, a descriptor of 1024 or more is written outside the select set, epoll adds to old flags, a timeout of 24.9 to 49.7 days becomes endless.)", "quantifier": "all histories of registrations, all event masks, all readiness of the system, all stack contents, all clocks and interruptions", "why_tests_cant": "2^32 masks per descriptor and arbitrary histories; stack contents and signals cannot be controlled by a test", "anchors": ["platform/src/linux/aosl_hal_iomp.c:aosl_hal_epoll_ctl", "platform/src/linux/aosl_hal_iomp.c:aosl_hal_epoll_wait", "platform/src/linux/aosl_hal_iomp.c:aosl_hal_poll", "platform/src/linux/aosl_hal_iomp.c:aosl_hal_select", "platform/src/linux/aosl_hal_iomp.c:aosl_hal_fdset_set", "platform/src/linux/aosl_hal_errno.c:aosl_hal_errno_convert", "kernel/et_mp.c:os_mp_wait_epoll", "kernel/poll_mp.c:os_mp_wait_poll", "kernel/select_mp.c:os_mp_wait_select"]}
{"id": "C64", "title": "Identification strings and random bytes fit their buffers", "statement": "For every buffer of 2 to 2^31-1 bytes and every content of the source, aosl_get_uuid and aosl_os_version write only inside the buffer and leave a terminated string: the source (without hyphens and line ends for the uuid) cut to the buffer, or the empty string and -1; smaller buffers are refused untouched. aosl_rand_bytes returns 0 only when the whole buffer holds bytes of the random device in order, however the reads are split or interrupted, and it returns. (The code violates parts: sizes above 2^32 are cut, so that 2^32+5 fills 5 bytes and reports success; a device at its end makes the call loop for ever.)", "quantifier": "all buffers, sizes, source contents and sequences of partial, interrupted and failing reads", "why_tests_cant": "short reads, signals and buffers of arbitrary size cannot be provoked by a test", "anchors": ["lib/utils.c:aosl_get_uuid", "lib/utils.c:aosl_os_version", "lib/utils.c:aosl_rand_bytes", "platform/src/linux/aosl_hal_utils.c:aosl_hal_get_uuid", "platform/src/linux/aosl_hal_utils.c:aosl_hal_os_version", "platform/src/linux/aosl_hal_utils.c:aosl_hal_rand_bytes"]}
{"id": "C65", "title": "File helpers report the truth", "statement": "aosl_fsize gives the size of the file, aosl_fread the number of bytes it stored; a success of aosl_mkdir means that the directory exists, a success of aosl_file_create that an empty file exists, and no other path is changed. (The code violates parts: sizes are cut to 32 bits, a 4 GiB file has size 0; aosl_mkdir succeeds for a plain file, aosl_file_create for a file with contents.)", "quantifier": "all file systems, paths, file sizes, results of the system", "why_tests_cant": "files of more than 2 GiB and all states of the path", "anchors": ["kernel/file.c:aosl_mkdir", "kernel/file.c:aosl_fsize", "kernel/file.c:aosl_file_create", "kernel/file.c:aosl_fread", "platform/src/linux/aosl_hal_file.c:aosl_hal_fsize", "platform/src/linux/aosl_hal_file.c:aosl_hal_file_create"]}
{"id": "C66", "title": "Log messages go to the function in force, up to the level in force", "statement": "In every history of setting the log function, setting the level and logging, exactly the messages whose level is at most the last valid level set (ERROR at first) reach the function set last (the default one after NULL), once each and in order; levels outside 0..7 change nothing; aosl_printf always gets through.", "quantifier": "all histories of calls", "why_tests_cant": "histories are unbounded", "anchors": ["kernel/log.c:aosl_set_vlog_func", "kernel/log.c:aosl_set_log_level", "kernel/log.c:____vlog", "kernel/log.c:aosl_log", "kernel/log.c:aosl_printf"]}
{"id": "C67", "title": "A function asks about itself", "statement": "While a function runs on a queue, aosl_mpq_run_func_arg, aosl_mpq_run_func_data, aosl_mpq_run_func_done_qid and aosl_mpq_running_refobj answer for the innermost function running there, however deeply functions call others on the same queue, and answer for the outer function again when the inner one has returned; outside of any function they fail. A function gets the number of items and the object of its request, and for an asynchronous request the items as they were when it was made, whatever the caller does with its memory later. When a function with a done queue has run, its completion is queued there exactly once with the items the function has left, or, if the done queue is gone, the function is called exactly once more for clean-up with the same items; never otherwise. The same holds for the function of a tail request of a pool.", "quantifier": "every sequence of requests of all kinds from any thread, every nesting of calls on the own queue, every change of arguments by the function or by the caller, every outcome of the lookups of objects and done queues", "why_tests_cant": "nesting depth, argument changes and the moments when objects and done queues disappear are unbounded", "anchors": ["kernel/mpq.c:q_invoke_f", "kernel/mpq.c:__invoke_f", "kernel/mpq.c:____add_f", "kernel/mpq.c:__add_or_invoke_f", "kernel/mpq.c:aosl_mpq_run_func_arg", "kernel/mpq.c:aosl_mpq_run_func_data", "kernel/mpq.c:aosl_mpq_run_func_done_qid", "kernel/mpq.c:aosl_mpq_running_refobj", "kernel/mpqp.c:____each_pool_promise_f"]}
{"id": "C68", "title": "The ported condition variable wakes the threads that wait", "statement": "On the ac791n port: a signal sent while threads wait wakes one of them, k signals wake k (or all), a broadcast wakes all that wait; a wait returns 0 only for a signal or broadcast sent since it began, the timeout only when its time has passed without one; it returns with the mutex held. A timeout of 0 does not wait. (The code violates parts: one semaphore serves all the waiters, so that a thread that begins to wait later can take the token of an older waiter, which then stays blocked even after a broadcast; tokens of surplus signals stay and let a later wait return at once; a timeout of 0 waits for ever and others are cut to whole tens of milliseconds.)", "quantifier": "any number of threads and waits, every interleaving, every timeout", "why_tests_cant": "needs exact interleavings", "anchors": ["platform/src/ac791n/aosl_hal_thread.c:aosl_hal_cond_signal", "platform/src/ac791n/aosl_hal_thread.c:aosl_hal_cond_broadcast", "platform/src/ac791n/aosl_hal_thread.c:aosl_hal_cond_timedwait", "kernel/thread.c:k_cond_timedwait", "kernel/thread.c:k_event_timedwait"]}
{"id": "C69", "title": "Ported threads have identities and end cleanly", "statement": "On the ac791n port: a running thread asking for itself gets its own handle, two threads that run at the same time get different answers, and a handle that is returned has not been freed; a join returns only after the thread's function, with its value, and only once; the memory of a thread is given back exactly once, when it has ended and its handle is destroyed (for a thread created by the library, which never destroys handles: when it has ended), and nothing is used afterwards. (The code violates parts: the registry has 16 places, which detached threads never leave, so that from the seventeenth thread on all the threads created by the library are told that they are the first one, and share its thread local data; a thread whose handle is destroyed gets another thread's handle; memory of detached threads is never given back.)", "quantifier": "any number of threads; every interleaving of create, end, join, detach, destroy, self", "why_tests_cant": "needs long histories and exact interleavings", "anchors": ["platform/src/ac791n/aosl_hal_thread.c:register_thread", "platform/src/ac791n/aosl_hal_thread.c:find_thread_by_name", "platform/src/ac791n/aosl_hal_thread.c:aosl_hal_thread_create", "platform/src/ac791n/aosl_hal_thread.c:aosl_hal_thread_self", "platform/src/ac791n/aosl_hal_thread.c:aosl_hal_thread_join", "platform/src/ac791n/aosl_hal_thread.c:ctx_unref", "kernel/thread.c:k_thread_create"]}
{"id": "C70", "title": "Public read-write lock with upgrade and downgrade", "statement": "For the public read-write lock (aosl_rwlock_*): while one client holds the lock for writing nobody else holds it at all; when any call gives the write lock, no other client holds the lock or is in the middle of turning a read lock into a write lock or back, so nothing changes between reading and writing across an upgrade or downgrade; a writer is turned away only while the lock is used by somebody else; as long as nobody holds the lock, some client that is inside a call can always go on; correctly paired calls never abort the process; a waiting writer is not overtaken without bound by readers that came later; the try functions return what the documentation says.", "quantifier": "every number of clients below 2^29, every sequence of calls and every interleaving of their steps, including those inside the underlying lock", "why_tests_cant": "The dangerous windows (between giving up the read lock and getting the write lock, between the failed probe of the internal mutex and the look at the upgrade mark) are a few instructions wide; a test run hits few of the interleavings.", "anchors": ["kernel/thread.c:k_rwlock_wrlock", "kernel/thread.c:k_rwlock_trywrlock", "kernel/thread.c:k_rwlock_rd2wrlock", "kernel/thread.c:k_rwlock_wr2rdlock", "kernel/thread.c:k_rwlock_wrunlock", "lib/thread_api.c:aosl_rwlock_rd2wrlock", "lib/rwlock.c:k_raw_rwlock_trywrlock"]}
{"id": "C71", "title": "Threads of the windows port", "statement": "With the windows port, a join of a thread (aosl_hal_thread_join) returns 0 with exactly the value that the thread's function returned or that it gave to aosl_hal_thread_exit, and only after the thread has ended; the handle, the bookkeeping node and the start block of a thread are given back exactly once when it has ended and was joined, detached or destroyed, and are never used afterwards; nothing is given back before anybody asked for it; a call made for one thread never affects another thread, even when the system reuses thread identifiers; no call but a join waits, and a join waits only for its own thread; a thread may detach itself; destroy may follow join, as in the project's tests.", "quantifier": "every number of threads and calls, every interleaving of thread start, end, create, join, detach and destroy, every reuse of thread identifiers the system allows", "why_tests_cant": "The windows between starting the thread and registering it, between the two critical sections of join, and between join and destroy are a few instructions wide, and identifier reuse is up to the system.", "anchors": ["platform/src/windows/aosl_hal_thread.c:aosl_hal_thread_create", "platform/src/windows/aosl_hal_thread.c:thread_entry_wrapper", "platform/src/windows/aosl_hal_thread.c:aosl_hal_thread_join", "platform/src/windows/aosl_hal_thread.c:aosl_hal_thread_detach", "platform/src/windows/aosl_hal_thread.c:aosl_hal_thread_destroy", "platform/src/windows/aosl_hal_thread.c:aosl_hal_thread_exit"]}
{"id": "C72", "title": "Idle queues of a pool are given up, and waiting for them ends", "statement": "A pool created with max_idles > 0 gives up its last queue, but never its only one, when one of its queues has had nothing to do for max_idles seconds, and all its queues after twice that time; a pool with a negative max_idles gives up nothing by itself. A shrink or destroy call that waits returns only after the queues it took out have ended, and every function a queue accepted is executed. After the pool has been destroyed its memory is not used any more. (The code violates three parts: overdue checks run in one burst, so that a queue that has just finished a long function counts as idle for seconds; two queues can take each other out and wait for each other for ever, with the library's own pool of two; a queue that took itself out, or was not waited for, uses the pool after it was destroyed.)", "quantifier": "every history of requests, pool calls and clock values, every interleaving, every pool size and limit", "why_tests_cant": "needs schedules with seconds of idle time and races between the checks of several queues and the destruction of the pool", "anchors": ["kernel/mpqp.c:__mpqp_q_check_shrink", "kernel/mpqp.c:__mpqp_q_init", "kernel/mpqp.c:__mpqp_shrink", "kernel/mpqp.c:__mpqp_shrink_all", "kernel/mpqp.c:aosl_mpqp_destroy", "kernel/timer.c:__check_and_run_timers", "kernel/mpq.c:__mp_queue_poll_loop"]}
{"id": "C73", "title": "Subscription to network events", "statement": "At most one queue in the process is subscribed to network events. Subscribing while somebody is subscribed is refused (EEXIST) and changes nothing; only the subscriber's queue can end the subscription (EPERM for the others). The callback runs only on the subscriber's thread, only while it is subscribed, and first, before the subscribing call returns, exactly if the network is up. While subscribed, reports of the system reach the callback; the library closes only descriptors it opened, and keeps none when nobody is subscribed. A subscription ends with its queue at the latest.", "quantifier": "every schedule of subscribing and unsubscribing calls on any number of queues, system reports and errors, refusals by the system, queue destructions and other threads' use of descriptor numbers", "why_tests_cant": "schedules, re-entrant calls from callbacks and reuse of descriptor numbers", "anchors": ["net/route.c:aosl_subscribe_net_events", "net/route.c:check_report_def_rt_change_event", "kernel/rt_monitor.c:__create_and_attach_af_netlink", "kernel/rt_monitor.c:__on_af_netlink_event", "kernel/rt_monitor.c:__process_rtmsg", "kernel/rt_monitor.c:os_unsubscribe_net_events"]}
{"id": "C74", "title": "A socket pair holds exactly the sockets it made, and gives them back", "statement": "aosl_ip_sk_create tries a family exactly if the library last saw a default route for it, both judged at one moment, asks the system for a socket of that family with the caller's type and protocol, and returns the number of sockets the pair then holds, or -1 if none, in which case nothing it opened stays open; aosl_ip_sk_bind binds exactly the sockets held for which an address is given, each to its address, returns how many succeeded or -1; aosl_ip_sk_close closes each held socket once, in whatever queue it is, and empties the pair, so that closing again does nothing. In correct use a pair never names a descriptor that is not an open socket made for it, two pairs never share one, no socket made for a pair is lost, and closing never closes somebody else's descriptor. (Violated or surprising: success is documented as 0 but is 1 or 2; a failing creation never sets aosl_errno, a successful binding may; without a subscriber to network events creation always fails; a socket its queue closed is still named by the pair, and closing the pair then closes whatever has the number; creation into a pair in use loses its sockets.)", "quantifier": "every interleaving of calls on any number of pairs, route changes, queues that take, give back and close descriptors, and other users of descriptors; every result of the system's calls", "why_tests_cant": "a foreign close or a leak needs number reuse between threads at one particular moment, and failures of single families", "anchors": ["net/route.c:aosl_ip_sk_create", "net/sk_utils.c:aosl_ip_sk_bind", "net/sk_utils.c:aosl_ip_sk_close", "kernel/iofd.c:__iofd_close", "include/api/aosl_mpq_net.h:aosl_ip_sk_init"]}
{"id": "C75", "title": "The text form of routes stays in the buffer and shows the routes", "statement": "aosl_rt_str and aosl_def_rt_str never write outside the caller's buffer, whatever its size; the text is NUL terminated and is the full text of the route, or of both routes separated by a semicolon, cut to the buffer; the buffer is returned exactly if there is a route. (Violated: with both routes present and a buffer shorter than the IPv4 text and three bytes, the separator is written past the end, and if the IPv4 text was cut, the remaining size wraps around and the whole IPv6 text is written past the end too; a buffer of one byte reports the routes as missing.)", "quantifier": "every pair of routes with any interface names, addresses and numbers, every buffer size, every previous content of the memory", "why_tests_cant": "the overrun needs both routes and a buffer in a narrow range of sizes that depends on the names and addresses of the machine; memory behind a test's buffer is seldom checked", "anchors": ["net/route.c:aosl_rt_str", "net/route.c:aosl_def_rt_str", "net/sk_utils.c:aosl_ip_sk_addr_str"]}
{"id": "C76", "title": "The performance callback stays the same while queues exist and hears of every execution", "statement": "aosl_perf_set_callback returns 0 exactly if it stored its callback, which happens only while no queue exists; otherwise it changes nothing, returns -1 with AOSL_EPERM, and a queue existed at a moment during the call; so once every queue has ended it can be set or unset again. Whatever threads set it and create or destroy queues meanwhile, the callback in force does not change during the life of a queue, NULL is never called, and every function a queue executes - also one within another or within the callback - is reported exactly once, after it returned, with its name and its free_only flag, to the callback in force when the queue was created. wait_us and exec_us are the times the function waited and ran. (The code violates the last sentence: exec_us is always 0 and wait_us is minus the moment of queueing, modulo 2^32.)", "quantifier": "every interleaving of any number of threads setting the callback, queues being created and destroyed, functions executed and nested to any depth", "why_tests_cant": "the callback is read three times per execution without a lock while other threads set it; the interleavings are unbounded; the times depend on the clock", "anchors": ["kernel/mpq.c:aosl_perf_set_callback", "kernel/mpq.c:get_unused_mpq_id", "kernel/mpq.c:__put_unused_mpq_id", "kernel/mpq.c:q_invoke_f", "kernel/time.c:aosl_tick_us"]}
{"id": "C77", "title": "Flag changes of a queue are atomic and keep the queue alive", "statement": "A change of a queue's flags that returned was made exactly once, at a moment during the call, however many threads change the flags at the same time; aosl_mpq_get_flags returns the flags given at creation with all changes made up to a moment during its call; an operation that is none of or, and, xor changes nothing. aosl_mpq_destroy is refused exactly while AOSL_MPQ_FLAG_DESTROY_NOT_ALLOWED is set. Whatever flags are changed, kicks and waits use the wake-up object the queue was created with, the internal flag stays as it is, and a reading can be told from an error. (The code violates the last sentence: changing AOSL_MPQ_FLAG_SIGP_EVENT makes every kick of an event queue get lost and crashes whoever kicks another; the internal flag can be cleared, so that queues of a pool and the main queue can be destroyed; the flags with all bits set read as -1.)", "quantifier": "every interleaving of any number of threads changing and reading the flags of a queue, with every operation and every mask, while it is kicked, waits, takes descriptors and is destroyed", "why_tests_cant": "lost updates need two threads between the load and the store; the flags are read without the lock elsewhere", "anchors": ["kernel/mpq.c:aosl_mpq_change_flags", "kernel/mpq.c:aosl_mpq_get_flags", "kernel/mpq.c:os_mp_kick", "kernel/osmp.c:os_init_sigp", "kernel/osmp.c:os_poll_dispatch", "kernel/mpq.c:aosl_mpq_destroy"]}
{"id": "C78", "title": "The text of a memory dump stays in its buffer", "statement": "When memory accounting is built in and on, aosl_memdump_r writes into the buffer the longest series of entries, from the first shown one on, that fits with its terminating NUL, without the comma and newline of the last; returns the number of all entries and of those written; writes nothing outside the buffer; leaves an empty text if no entry is written. Off, or with a length below 1, it returns -1 and writes nothing. (The code violates this for a buffer of one byte, which it always overruns by one, and when there is no entry to show: the first byte of the buffer is then left as it was.)", "quantifier": "every series of entries with any texts, any of them left out, every buffer length and previous content", "why_tests_cant": "entry texts depend on the program's allocations; the one byte behind the buffer is seldom checked", "anchors": ["mm/mm.c:aosl_memdump_r", "mm/mm.c:__mm_pos_walk_r"]}
{"id": "C79", "title": "Socket options and bindings ask the system for exactly what was requested", "statement": "aosl_set_socket_dscp with a family of IPv4 or IPv6 and a value of 0..63 asks the system once to set the traffic class of that socket, at the level of that family, to the octet with the value in its upper six bits and 0 in the other two; any other family or value is refused with EINVAL and nothing is asked. aosl_bind_port_only asks once to bind to the unspecified address of that family and exactly that port in network byte order; other families are refused. aosl_bind_device asks once to bind to the device of that name; NULL and the empty name are refused. Each returns 0 exactly if the system agreed, and otherwise a negative number with the corresponding errno. (The code violates this for names of 16 bytes and more, of which only the first 15 bytes reach the system, so that another device may be bound.)", "quantifier": "every socket, family, value, port, name and answer of the system", "why_tests_cant": "the option that reached the kernel is seldom read back, and values and byte orders are tried only singly", "anchors": ["net/sk_utils.c:aosl_set_socket_dscp", "net/sk_utils.c:aosl_bind_device", "net/sk_utils.c:aosl_bind_port_only", "platform/src/linux/aosl_hal_socket.c:aosl_hal_sk_bind_device", "platform/src/linux/aosl_hal_socket.c:aosl_hal_sk_set_dscp"]}
