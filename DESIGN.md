# Formal model of AgoraIO-Community/aosl in Rocq (Coq 8.16.1)

## 1. Shape of the development

`rocq/theories/` is flat. For each component `X`:

* `X.v`        the model: Gallina functions or transition functions; every definition cites the
               file and lines of /repo it models and the simplifications made;
* `XSpec.v`    (when a separate specification is needed) the small, model-independent vocabulary
               in which the property is stated (sequences, maps, event histories);
* `XProof.v`, `XInv.v`, ...  lemmas and invariants;
* `PropX.v`    the property theorems `Cnn_...`, `Print Assumptions` after each, and `Example`s
               showing that concrete, non-trivial cases meet the hypotheses.

Conventions

* Machine integers are `Z` with explicit wrap-around where the width matters (`u8`, `u32`, `s32`, ... in
  Base.v); sizes and indices that cannot wrap are `nat`.
* Undefined behaviour (access outside a block, use after free, NULL dereference) and `abort()` are
  distinct outcomes (`UB`, `Aborted`) of the model functions, never silently totalised.
* Memory allocation and HAL calls are oracles: arguments of the model functions, so that a theorem
  holds for every behaviour of the platform (failures included unless the comment says otherwise).
* User callbacks are oracles too: any function, or any sequence of API calls.
* Concurrency: one transition = one shared-memory action, or one critical section of a lock when the
  code holds the lock for the whole of it; any number of threads, no fairness assumed; theorems hold
  for every reachable state or every history.  "Is always woken"-properties are stated as: no reachable
  state has a sleeping thread that nothing is going to wake (plus explicit progress theorems).
* When the code violates a property, the violation is a theorem `..._refuted` (an execution of the model
  is exhibited) and the strongest true variant that was found is proved, with the suffix `_partial`
  when it is a restriction of the stated property.

## 2. Trusted base

* Coq's kernel (8.16.1) including its `vm_compute` conversion.
* Axioms: none. `Print Assumptions` prints "Closed under the global context" for every theorem named in
  MANIFEST.json. (vcheck's `library_axioms` lists seven entries of `Coq.ssr.ssrunder`: these are
  the parameters of a sealed module of the standard library that is loaded, through ssreflect, with some of
  the imported libraries; no theorem depends on them.)
* The faithfulness of the model to the C text. The code could not be built or run in this sandbox; the
  model was written by reading, function by function, and every definition names the lines it stands for.
* Sequential consistency (the Linux HAL's atomics are seq_cst; shared fields are otherwise accessed under
  locks), mutexes / semaphores / events behave as documented; LP64, little endian, Linux HAL, the default
  Kconfig (CONFIG_AOSL_IPV6=y), pipe-based wake-up of queues.

## 3. Properties: model and proof

| id | what is modelled | how it is proved | files |
|----|------------------|------------------|-------|
| C01, C02 | bitmap as a byte block with bounds checks, byte and bit loops of the search | simulation with a set of indices, loop invariants | Bitmap* |
| C03, C04 | id pools: bitmap, table, life counter (mpq.c, refobj.c, ... share the scheme) | invariant over histories; handle arithmetic mod 2^16; the documented capacity is refuted | Idpool* |
| C05-C07 | rbtree.c on a heap of nodes with parent/colour words, pointer by pointer | separation-style tree predicate, in-order and red-black invariants, histories | Rbtree* |
| C08-C10, C46 | psb chain with byte memory, window offsets | invariant, exact success conditions, byte-queue refinement; wrap-around refutations | Psb* |
| C11, C12 | marshalling.c: type descriptions, encoder, decoder over segmented chains, memory objects | independent encoding relation; decoder = relation on flat bytes; chain simulation; termination bound | Marshal* |
| C13 | dynamic arrays, strings with count/capacity | refinement to byte sequences over histories | Dynarr* |
| C14-C18, C47 | timer.c: the queue's tree and list, run loop, callbacks performing any API calls | invariants, induction on the run loop and on histories | Timer* |
| C19-C25, C48 | mpq.c: any number of queues and threads, add/run/kick/wait/destroy as small steps | inductive invariants over all executions, histories of events | Mpq* |
| C26, C49 | rwlockimpl.c / rwlock-generic.h: the counter, wait list, per-waiter events | inductive invariant over all interleavings; refutation for C49 | Rwlock* |
| C27-C29 | refobj.c, its use by queue functions (mpq.c 518-651), stop_lock (thread.c 208-309) seen as mutex + raw lock; any number of threads and objects, calls nest from callbacks and destructors | inductive invariant: every call frame contributes to the counters of its object; the history is tied to the stacks; theorems about every history | Refobj, RefobjSpec, RefobjInv, RefobjStep, RefobjOp, RefobjDes, RefobjQ, RefobjRest, RefobjGlob, RefobjTrace, RefobjHist, RefobjReach, RefobjCount, RefobjMore, PropRefobj, PropRefobjEx |
| C30 | tls.c | refinement to a specification machine of key incarnations | Tls |
| C31 | mm.c statistics, tree of blocks as a map | invariant; races refuted | Mm* |
| C32 | iofd.c writing side, poll/select/epoll arming | stream invariant over arbitrary call/poll histories | Iofdw |
| C33, C50 | iofd.c reading side, packet checker, accept loop | functional characterisation of the loop; refutation for C50 | Iofdr |
| C51 | event objects (thread.c 318-388) on an ideal condition variable | inductive invariant, histories; refutations of the documented pulse | Event |
| C25 (event queues) | the wake-up protocol of a queue with AOSL_MPQ_FLAG_SIGP_EVENT (osmp.c 92-187) | inductive invariant over all interleavings | MpqEvent |
| C52 | static locks: the race on lock->state, the HAL mutex (thread.c 390-507), trylock | inductive invariant over all interleavings; refutations | Slock |
| C53 | one round of poll_mp.c / select_mp.c wait, dispatch of one event (poll, select, epoll) | equality with a specification list, induction over the descriptors; refutations | Iomp |
| C54 | life of descriptors: fileobj.c, iofd.c add/delete/close/calls, dispatch; all threads, deliveries as stacks of frames | reference count invariant, history invariant, effect lemma per step; refuting schedules | Fd, FdInv, FdStep, FdEff |
| C55 | netlink parsing of rt_monitor.c on the bytes of the receive buffer: attributes, route dump, change notifications | wire format as separate specification (encoder); induction over messages and attributes; fuel shown to suffice; refuting byte strings | Netlink, NetlinkSpec, NetlinkProof, NetlinkSafe |
| C56 | clocks, deadlines of timed waits, the retry loops of the three multiplexers, the int cut of the HAL, msleep | real time as Z nanoseconds; what the system's calls promise as a separate relation; induction over interrupted attempts; refuting values, one through a reachable timer state | Wait, PropWait |
| C57 | the creating and the created thread of aosl_mpq_create, two stack frames, two mutex/condition pairs, the queue object; priority mapping | inductive invariant over all interleavings, ranking function for termination, refuting schedules | Create, CreateInv, PropCreate |
| C58 | aosl_main_qid, the table of queues and their phases, any number of threads in the main-queue calls, other queues, the id counter | inductive invariant (one owner of the right to the main queue), run relation for the waits, refuting schedules | Mainq, MainqInv, PropMainq |
| C59 | socket addresses as 28 bytes, conversion to and from the system's structures, aosl_get_sockaddr, wildcard addresses | endpoints as separate specification; byte-level computation for symbolic bytes; refuting values | Dns, PropDns |
| C60 | getaddrinfo's answer as a list, the two copying loops, one asynchronous call as a transition system (pool, queue, caller) | induction over the answer; inductive invariant; refutations, one together with the model of C38 | Dns, PropDns |
| C61 | the ten functions' ways from the queue's answer to their return value; ____add_f's waiting loop over a history of fill levels | case analysis over the functions, induction over the history; refutations | Fdret, PropFdret |
| C62 | errno.c with the list at the level of single loads and stores; threads, thread local values, start and end | inductive invariants (order of insertion as ghost list); a second invariant for serialised first uses; schedules as refutations | Errno, ErrnoInv, PropErrno |
| C63 | the Linux multiplexing functions on bit masks, the system's side after its manual; retry loops as lists of clock readings | bit lemmas, induction over histories of calls and over clock readings; refutations | Halmp, PropHalmp |
| C64, C65, C66 | utilities, file helpers and log; the system's answers as inputs, a file system as a map | induction over the source, the reads, the history; refutations | Util, PropUtil |
| C67 | one queue thread, its requests, memory blocks with copies and frees, nested calls, tail markers | invariant relating the saved contexts to the history of begins and ends; a refutation | Fctx, FctxInv, PropFctx |
| C68 | threads around one condition variable of the ac791n port: mutex, inner lock, counter, shared semaphore, histories | invariant over all interleavings; history lemmas (who can take a token); refutations by schedules | Condac, PropCondac |
| C69 | contexts, registry of 16 slots and handles of the ac791n port, all histories | invariant relating every context to the part of the history about it; refutations by schedules | Threadac, PropThreadac |
| C70 | kernel/thread.c 208-309 (public read-write lock: mutex, upgrade mark, retry loop) as a product with the raw lock model of C26 | product invariant over all interleavings, reusing exclusion and progress of the raw lock; schedules for the refuted clauses | Rwapi, RwapiSpec, RwapiInv, PropRwapi |
| C71 | threads, registry list and calls of the windows port with reusable thread identifiers, all histories | invariant per thread (ownership of handle, node and start block) over all interleavings of disciplined callers; refutations by executable schedules | Winth, WinthSpec, WinthInv, PropWinth |
| C72 | idle checks of a pool's queues with real time and the re-arming of their timers, shrink, shrink_all, destroy with and without wait, the loop of a queue's thread | invariant per queue (what its counter saw, in checks, work and time), trace splitting; an invariant of ownership for destroy; refutations by executable schedules and an invariant of the stuck state | Idle, IdleSpec, IdleInv, PropIdle |
| C73 | subscribing and unsubscribing with the lock, the creation, failure and replacement of the netlink socket, datagrams of several messages, re-entrant callbacks (a stack of frames per queue), descriptor numbers shared with the application, destruction of queues | invariant over all schedules (shape of the stacks, one creator at a time, who owns which descriptor), every entry of the history judged against the history before it; four refutations, two of them (the subscriber's queue is gone; a broken socket not replaced) for every continuation |
| C74 | creation, binding, closing of dual-stack socket pairs: one system call per step, any number of pairs and threads, the table of open descriptors with reuse of numbers, queues that take, give back, close or refuse to close descriptors, the cache of routes | per-call specification (arguments, system calls in order, result, errno, pair afterwards) as an invariant over the program points; who owns a number defined on the history; ownership invariant in correct use; refuting schedules | Ipsk, IpskSpec, IpskInv, IpskKer, PropIpsk |
| C75 | aosl_rt_str, aosl_def_rt_str on the memory from the buffer on, with the C library's snprintf, strlen, strcat and the size_t wrap-around | exact text and extent of the writes for symbolic texts; the set of failing sizes is exact | Rtstr, PropRtstr |
| C76 | aosl_perf_set_callback under the read lock, the count of queues, creation and destruction, the three unlocked reads in q_invoke_f, nested executions, the times reported | invariant over all schedules; the times are refuted | Perf, PerfSpec, PerfInv, PropPerf |
| C77 | aosl_mpq_change_flags and aosl_mpq_get_flags with load, store and lock apart, and the readings of the flags without the lock (kicks, waits, descriptors, destruction) against the wake-up object made at creation | linearization over all schedules; exact condition for a lost wake-up | Qflags, QflagsSpec, QflagsInv, PropQflags |
| C78 | aosl_memdump_r and the callback of its walk on the memory from the buffer on, entries as symbolic texts | induction over the entries; exact text, counts and extent of the writes | Dumpr, PropDumpr |
| C79 | the three socket setters down to the bytes of the system call, system answer arbitrary | case analysis and arithmetic of the bytes; the truncated device name as a refutation | Skopt, PropSkopt |
| C34 | mpqp.c: pool entries, choice of a queue, tail requests, alloc/free/shrink | inductive invariants over all interleavings; two refutations | Mpqp |
| C35 | aosl_ctor/aosl_dtor with the lifecycle lock | inductive invariant | Ctor |
| C36, C39, C40 | pure arithmetic | lia and bit lemmas | Arith* |
| C37 | inet.c parsers and printers on bytes | independent grammar; induction on the text | Inet* |
| C38 | ipv6.c on bytes of socket addresses | byte-level computation | Ipv6 |
| C41 | cond.c: semaphore list | inductive invariant; refutation of "one waiter per signal" | Cond |
| C42 | aosl_list.h on a heap of cells | list predicate with frame | Dlist |
| C43 | argument vectors of the on_q functions | list lemmas; refutations | Onq |
| C44 | route.c change detection | induction on observations; refutation | Route |
| C45 | netifs.c hash chains | refinement to a map | Netifs |

## 4. What is modelled, and what is not

Modelled, at the level of the definitions' comments: lib/{bitmap,rbtree,psbuff,marshalling,tls,cond}.c,
lib/rwlockimpl.c, include/api/aosl_list.h, kernel/timer.c, kernel/mpq.c (queue part), kernel/mpqp.c (one pool),
kernel/refobj.c, kernel/thread.c 255-507 (rwlock, events, static locks),
kernel/iofd.c (write queue, read loop, descriptor registration arguments), mm/mm.c, net/inet.c, net/ipv6.c,
net/route.c, net/netifs.c, kernel/rt_monitor.c (parsing), the descriptor helpers of net/sk_utils.c that the rows above name, the error
pointer and wrap-around macros, the byte-order functions.

Also kernel/time.c, kernel/thread.c 35-112, kernel/mpq.c 949-1062 (creation) and the parts of the Linux HAL that C56, C57 name.
Also net/dns.c and the address part of platform/src/linux/aosl_hal_socket.c (C59, C60; queues and the pool only take, refuse or run a request there).
Also kernel/mpq.c 731-760, 800-853 and 1671-1826 (the main queue, C58; handles are assumed not to repeat within a run, the wake-up of waiters is one step).

Also the return paths of kernel/iofd.c 458-801 and net/sk_utils.c 303-807 (C61).

Also lib/errno.c 18-76 (C62).

Also platform/src/linux/aosl_hal_iomp.c and aosl_hal_errno.c (C63).

Also lib/utils.c, kernel/file.c, kernel/log.c with their Linux parts (C64-C66; files without permissions and concurrent changes).

Fctx.v models what a running function can ask (kernel/mpq.c 371-445, 518-660, 1158-1229, 1255-1294) and the marker of a tail request (kernel/mpqp.c 732-816); not the performance callback, f_name and the coroutine stacks.

platform/src/ac791n/aosl_hal_thread.c 190-292 (condition variable and its timeouts; the semaphores of the system are counting semaphores, the counter a natural number): Condac.v.

platform/src/ac791n/aosl_hal_thread.c 9-112, 295-431 (thread contexts, registry, join, self; without priorities, stacks, names other than those of the registry; allocations succeed; handles are not used after destroy): Threadac.v.

kernel/thread.c 208-309 and lib/rwlock.c (public read-write lock; every raw step is a step of Rwlock.v; the HAL mutex is an owner): Rwapi.v. A client follows the protocol (unlocks what it holds); the 1 ms sleeps are single steps.

platform/src/windows/aosl_hal_thread.c 13-93, 171-290, 330-403 (registry, create, wrapper, exit, join, detach, destroy; without names and priorities; allocations and _beginthreadex succeed; the system reuses an identifier only after the thread ended and its handle was closed; handle values do not repeat): Winth.v.
* kernel/mpqp.c 97-180, 883-987, 1078-1085 with the queue loop (mpq.c 672-704, 766-868) and timer.c 487-542 for the idle check's timer: Idle (functions run by the queues do not call pool functions; hand-over of a request is one step).
* net/route.c 22-25, 117-176, 380-443 and kernel/rt_monitor.c 440-539: Netev (a callback with its argument is one number, a datagram is the number of its route messages, queue numbers are not reused; k_route_fini, 445-450, is left out);
Also net/route.c 326-372, net/sk_utils.c 889-926 and 1121-1135 (C74; the queue's side of __iofd_close is C54, here only its outcomes: closed, or left to a queue that is ending).
Also net/route.c 246-293 and net/sk_utils.c 1178-1198 (C75; snprintf as glibc's, without fortification).
Also kernel/mpq.c 100-176 (the count and the callback), 532-566 (the callback's side of q_invoke_f) and kernel/time.c 24-27 (C76).
Also kernel/mpq.c 1073-1127, 307-335, 1672-1690, kernel/osmp.c 179-183 and 308-338, kernel/iofd.c 304-305 as far as they look at the flags (C77).
Also mm/mm.c 144-165 and 334-374, with CONFIG_AOSL_MEM_DUMP (C78).
Also net/sk_utils.c 831-890 with platform/src/linux/aosl_hal_socket.c 58-80, 136-194 and aosl_hal_errno.c (C79).
Not modelled: the rest of the HAL implementations (platform/), the multiplexing calls other than one round of poll/select and the dispatch of one
event (C53), statistics, asynchronous
"promise" invocation of fds, Android and
lwIP branches, memory exhaustion where the code aborts on it anyway (stated in the comments).

Simplifications common to the concurrent models: memory is sequentially consistent; a step that reads two
counters reads them at once where the comment says so; object identifiers are never reused inside Mpq and
Mpqp (reuse is C03's subject).

## 5. Findings

Violations proved in the model (`_refuted` theorems) are listed in MANIFEST.json's notes. Further
observations made while modelling, not all of them stated as theorems:

* rbtree: the header says that the link search returns NULL for a duplicate key; the code does not.
* marshalling: a fixed array of more than 65535 elements never terminates; the size function returns its error
  as a non-negative value; an empty middle segment breaks the safe string size; a dynamic string of 65535 bytes
  is recorded with allocated size 0 (leak); copying a string out into a buffer of size 0 writes before it.
* descriptors on another queue: aosl_mpq_add_fd with fd -1 reads varargs that are not there; variants with
  more than 64-k arguments always fail with E2BIG; aosl_mpq_add_fd_on_q returns positive values on refusal.
* route: the default route count of an absent family is stale; rta_oif points into a buffer overwritten by the
  next recv; if_wireless is not set when the interface is unknown.
* tls: deleting a key twice is accepted; 240 keys at most although 512 are declared; values survive thread id reuse.
* inet: on ENOSPC the (unwritten) buffer is returned; a size_t length is cut to int.
* ipv6: an IPv4 source is misread; a changed prefix is refused and a stale one kept; a 12 byte block is typed as
  16 bytes; connect_on_q uses the calling queue's prefix.
* iofd: the direct path of a write bypasses the custom write function; total_len counts whole nodes when one
  is partially sent; aosl_send / aosl_sendto do not arm POLLOUT with poll and select; an allocation failure after
  a partial write loses the rest; accept's would-block closes the listener; a packet of more than twice the
  buffer is reported as end of stream; a stream descriptor without checker loops at end of file.
* mpqp: aosl_mpq_free sets a negative errno; a tail request whose counter cannot be allocated returns -1 without
  errno; requests on queues removed before a tail request was placed are not waited for; aosl_mpq_alloc
  reads the entry after releasing the lock.
* refobj: aosl_ref_destroy from the object's own aosl_ref_write callback deadlocks unnoticed; two queue functions of one
  object that both write abort the process; a nested own-queue call that writes deadlocks; the second of two
  concurrent deleting destroys returns before the first is done.
* mpq: the fini callback's own requests are accepted and never run; poll timeouts are cut from intptr_t to int.
* descriptors (C54): aosl_mpq_del_fd inside the own data callback does not stop further callbacks (iofd.c 144 tests
  only for a closed number); aosl_close inside event_f (ready for writing) is followed by read_f with the invalid
  number (et_mp.c 141-151 go on to __iofd_read_data); remove_fd takes out whatever has the number, so a second,
  late delete/close of an old object removes a new descriptor from the table, and mpq_fini_iofds then loops for
  ever; an event already fetched is delivered to a new descriptor with the same number, even one of another queue;
  a failing os_add_event_fd frees the object although it was already published (396-401).
* route monitor (C55): a default route of metric 0 (no RTA_PRIORITY) loses to any other; rta_oif / rta_gw point into a
  buffer that the next recv overwrites; no check that a route message has its 12 byte header or that attributes
  have their 4 bytes; __process_rtmsg keeps the remaining length in a size_t that wraps when the last length is
  no multiple of 4; a failing bind closes the socket twice (rt_monitor.c 481-484, 498).
* multiplexing (C53): more than 1024 descriptors on a poll() queue abort the process (poll_mp.c 74, mpq.c 792); with
  poll() or select() descriptors behind 64 busy ones are never served, and a bare hang-up or error is never
  reported and makes the loop spin; with epoll an error drops data that is still to be read.
* locks: aosl_lock_trylock returns 1 on success and 0 on failure, documented as 0 and <0 (C52); a static lock gives
  up after 100 retries of 10 ms while another thread is still initialising it.
* waits (C56): aosl_tick_us returns 0, so the load figures of a queue are always 0; usleep is interrupted by signals and not
  repeated; with CONFIG_AOSL_COND on Linux an untimed condition wait returns at once.
* main queue (C58): a failed aosl_main_start leaves aosl_main_qid 0, so that every later start fails with EEXIST and aosl_main_started() is true for ever;
  the `(int)` cast in aosl_mpq_main makes it return a wrong id once the life id reaches 32768; aosl_main_start reads q->qid without a reference.
* names (C59, C60): the host name is not copied; every resolved IPv6 address overwrites the queue's NAT64 prefix, after which that address, used with an IPv4
  socket, is sent to its own last four bytes; aosl_get_sockaddr ignores the bound address.
* return values (C61): a refused request is returned as a positive number by aosl_write, aosl_send, aosl_sendto, aosl_close, aosl_mpq_del_fd and
  aosl_mpq_add_fd_on_q; a refused synchronous ____add_f does not destroy its mutex and condition (mpq.c 418-420, 471-473).
* Linux multiplexing (C63): aosl_hal_poll ORs into uninitialised event masks; FD_SET with a descriptor >= 1024; timeouts of 2^31 ms and more become negative.
* a synchronous call on the own queue without arguments or with empty data passes a NULL vector; inside it aosl_mpq_run_func_arg and aosl_mpq_run_func_data
  fail with EPERM as if no function ran (C67);
* ac791n condition variable (C68): one semaphore for all waiters, so later waiters steal the tokens of earlier ones (lost wake-up even of a broadcast), surplus signals wake later waits; a timeout of 0 (also of aosl_event_timedwait and of the semaphore) waits for ever.
* ac791n threads (C69): k_thread_create detaches and nobody calls aosl_hal_thread_destroy, so registry slots and contexts are never released; from the 17th thread on aosl_thread_self (the key of lib/tls.c) answers with the first thread; aosl_hal_thread_exit returns to its caller.
* public read-write lock (C70): rd2wrlock_count is cleared only by the downgrade (thread.c 307), so rdlock, rd2wrlock, wrunlock leaves it set and the next upgrade aborts the process if anybody else is probing the lock; it is cleared after the read lock is taken back, so an upgrade by a reader admitted meanwhile aborts; aosl_rwlock_wrlock polls and can be overtaken for ever; the try functions return 1/0, documented 0/<0.
* windows threads (C71): aosl_hal_thread_exit bypasses the wrapper, so join yields NULL instead of the value and start block (and, if detached, node) leak; a thread that detaches itself before create registered it is not detached; destroy before the end is silently ignored; join followed by destroy (as in test/aosl_test.c) destroys the node of another thread when the identifier was reused; concurrent joins use freed memory.
* idle queues of a pool (C72): the periodic check catches up on overdue firings in one burst (timer.c 530), so that a queue that has just finished a function of 2*max_idles+1 seconds empties the pool at once; with the library's own pool (2 queues, limit 5 s) a request of about 12 s ends in two queues waiting for each other for ever, and what they had accepted is never executed (C72_deadlock_refuted); a queue that takes itself out is not waited for by aosl_mpqp_destroy and uses the freed pool in __mpqp_q_fini. Seen while reading, not modelled: k_mpqp_init (616-620) creates only the LTW pool, so aosl_cpup, aosl_gpup and aosl_genp return NULL and aosl_mpq_alloc / aosl_mpq_free use a NULL pointer.
* subscription to network events (C73): a callback that unsubscribes is called again for the remaining messages of the datagram (rt_monitor.c 445-461), which also spoils the state so that the next subscriber is not told UP; when bind or the attachment of the netlink socket fails, the socket is closed twice (482/487 and 502), so that a descriptor another thread has opened meanwhile is closed; when a broken socket cannot be replaced (513-514) the subscriber hears nothing any more, and af_netlink_fd keeps the old number, so that unsubscribing closes whatever has that number now; a destroyed queue stays the subscriber, after which every subscription fails with EEXIST and every unsubscription with EPERM;
* socket pairs (C74): aosl_mpq_net.h documents 0 on success for aosl_ip_sk_create and aosl_ip_sk_bind, the code returns 1 or 2; creation never sets aosl_errno; it consults the cache of routes, which is filled only while somebody is subscribed to network events, so without a subscriber it always fails; a socket that its queue closed is still named by the pair, and aosl_ip_sk_close then closes whatever has the number; aosl_ip_sk_bind may return success with an errno set.
* route texts (C75): aosl_def_rt_str with both routes and a buffer shorter than the IPv4 text + 3 writes past the buffer (strcat of the separator; then `buf_size - len` wraps to SIZE_MAX and the whole IPv6 text follows); no other size fails.
* performance callback (C76): aosl_tick_us returns 0 always (time.c 24-27), so exec_us is always 0 and wait_us is -1000 * (moment of queueing) modulo 2^32, for every function (mpq.c 560); the documented times are never given.
* queue flags (C77): aosl_mpq_change_flags accepts any mask. With AOSL_MPQ_FLAG_SIGP_EVENT cleared on a queue created with it, kicks are written to descriptor -1 and lost and the queue waits without a wake-up object; set on a queue created without it, the kicker dereferences a null event (mpq.c 331, osmp.c 179). The internal AOSL_MPQ_FLAG_DESTROY_NOT_ALLOWED can be cleared, e.g. by `and 1`. aosl_mpq_get_flags returns -1 both for an error and for all bits set.
* memory dumps (C78): aosl_memdump_r with a buffer of one byte stores the NUL at buf [1] (mm.c 366: vlen stays 0); with no entry to show buf [0] is never written, so the text is the character that was there; cnts [1] is the number of entries written, not the "free count" of the header.
* device names (C79): aosl_bind_device silently cuts names to 15 bytes (aosl_hal_socket.c 156), so a longer name binds the device called by its first 15 bytes.
* creation (C57): pthread_create's positive errors are taken for success (also in aosl_hal_thread_set_priority); __mpq_create's
  callers read q->qid without a reference; aosl_main_start that fails leaves the main queue marked as being created.
* errno.c (C62): the list of per-thread errno cells is changed without a lock (leak); values survive thread ids. mm.c: calloc does not check for overflow.

## 6. Testing the theorems

`seeded/LOG.jsonl` records the seeded edits: each line names the definition edited in a scratch copy, the edit,
the English claim it breaks, the theorems whose proofs then failed, and the theorems tightened when none failed.
