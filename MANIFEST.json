{
 "claims": [
  {
   "property": "C01",
   "status": "proved",
   "theorems": [
    "C01_bitmap_reads_last_write",
    "C01_bitmap_out_of_range_ignored",
    "C01_bitmap_copy_preserves",
    "C01_bitmap_get_at_size_refuted"
   ],
   "note": "Holds for every history with in-range reads. bitmap_get with index exactly equal to the size passes its check and reads out of the block when the size is a multiple of 8 (C01_bitmap_get_at_size_refuted)."
  },
  {
   "property": "C02",
   "status": "proved",
   "theorems": [
    "C02_first_zero_is_smallest"
   ],
   "note": ""
  },
  {
   "property": "C03",
   "status": "proved",
   "theorems": [
    "C03_pool_never_aborts",
    "C03_live_handles_distinct",
    "C03_lookup_exact",
    "C03_stale_handle_dead",
    "C03_stale_handle_forever_refuted"
   ],
   "note": "Stale handles are dead until 65535 further handles were issued; the bound is sharp (C03_stale_handle_forever_refuted)."
  },
  {
   "property": "C04",
   "status": "partial",
   "theorems": [
    "C04_creation_succeeds_below_248_partial",
    "C04_creation_up_to_maximum_refuted"
   ],
   "note": "False as stated: capacity is exactly 248 because the bitmap size is an 8 bit integer; the exact capacity is proved."
  },
  {
   "property": "C05",
   "status": "proved",
   "theorems": [
    "C05_ordered_multiset",
    "C05_insert_succeeds",
    "C05_erase_succeeds",
    "C05_find",
    "C05_remove",
    "C05_insertion_point",
    "C05_clear",
    "C05_replace_node"
   ],
   "note": ""
  },
  {
   "property": "C06",
   "status": "proved",
   "theorems": [
    "C06_balanced",
    "C06_logarithmic_steps"
   ],
   "note": ""
  },
  {
   "property": "C07",
   "status": "proved",
   "theorems": [
    "C07_iteration",
    "C07_traversals"
   ],
   "note": ""
  },
  {
   "property": "C08",
   "status": "proved",
   "theorems": [
    "C08_operations_stay_inside",
    "C08_returned_range_inside",
    "C08_fails_exactly_without_room",
    "C08_rooms_add_up"
   ],
   "note": ""
  },
  {
   "property": "C09",
   "status": "proved",
   "theorems": [
    "C09_faithful_byte_queue",
    "C09_total_len_is_sum",
    "C09_reset_empties"
   ],
   "note": ""
  },
  {
   "property": "C10",
   "status": "partial",
   "theorems": [
    "C10_below_2_32_partial",
    "C10_push_bounds_refuted",
    "C10_put_length_truncated_refuted"
   ],
   "note": "False as stated for size_t lengths near 2^64 (C10_*_refuted exhibits it); proved for every length below the wrap-around bound."
  },
  {
   "property": "C11",
   "status": "partial",
   "theorems": [
    "C11_element_size_is_sizeof",
    "C11_marshal_appends_encoding",
    "C11_unmarshal_reads_encoding",
    "C11_round_trip",
    "C11_value_unique",
    "C11_long_string_refuted",
    "C11_long_string_lost_refuted"
   ],
   "note": "Round trip proved for every type description that fits the wire format (C11_round_trip; the encoder and decoder are also each tied to an independent encoding relation). Refuted for strings of 65535 bytes or more: the length prefix is 16 bits (C11_long_string_refuted, C11_long_string_lost_refuted)."
  },
  {
   "property": "C12",
   "status": "partial",
   "theorems": [
    "C12_any_input_is_safe",
    "C12_accepted_input_is_valid",
    "C12_strict_prefix_rejected",
    "C12_uninitialised_helper_refuted"
   ],
   "note": "Termination, memory safety and bound on consumption proved for every byte string, segmentation and type; a strict prefix is rejected. The hypothesis e_helper_null records that the local helper type's is_have member (never initialised by the code) happens to be NULL; C12_uninitialised_helper_refuted shows the call is undefined behaviour otherwise."
  },
  {
   "property": "C13",
   "status": "partial",
   "theorems": [
    "C13_add_appends",
    "C13_strcat_concatenates",
    "C13_strcpy_replaces",
    "C13_copy_data_replaces",
    "C13_take_moves",
    "C13_bytes_copy_copies",
    "C13_compare_decides_equality",
    "C13_strcpy_out_truncates",
    "C13_is_empty",
    "C13_reachable_invariant",
    "C13_no_undefined_behaviour",
    "C13_failed_strcpy_loses_content_refuted",
    "C13_self_append_refuted"
   ],
   "note": "Sequence behaviour proved for all operations and all histories; refuted parts: failing strcpy loses old content, self-append reads freed memory."
  },
  {
   "property": "C14",
   "status": "proved",
   "theorems": [
    "C14_no_undefined_behaviour",
    "C14_each_firing_is_the_earliest",
    "C14_run_is_in_order_of_expiry"
   ],
   "note": ""
  },
  {
   "property": "C15",
   "status": "proved",
   "theorems": [
    "C15_never_early",
    "C15_no_due_timer_left",
    "C15_oneshot_fires_exactly_once",
    "C15_run_terminates",
    "C15_sleep_time_is_exact"
   ],
   "note": ""
  },
  {
   "property": "C16",
   "status": "partial",
   "theorems": [
    "C16_cancelled_timer_does_not_fire",
    "C16_killed_timer_never_fires",
    "C16_other_timers_are_unaffected",
    "C16_remote_resched_revives_killed_timer_refuted"
   ],
   "note": "Proved for every history in which no reschedule requested by another thread is still under way when the timer is killed. With one under way the code re-arms the killed timer and later frees it while linked (C16_remote_resched_revives_killed_timer_refuted)."
  },
  {
   "property": "C17",
   "status": "proved",
   "theorems": [
    "C17_periodic_rearm",
    "C17_next_expiry_keeps_the_period"
   ],
   "note": ""
  },
  {
   "property": "C18",
   "status": "partial",
   "theorems": [
    "C18_zero_expiry_is_refused",
    "C18_other_expiries_are_kept",
    "C18_on_q_accepts_zero_refuted"
   ],
   "note": "Refused by both direct entry points; accepted by the on_q variant (C18_on_q_accepts_zero_refuted)."
  },
  {
   "property": "C19",
   "status": "proved",
   "theorems": [
    "C19_in_order",
    "C19_once",
    "C19_one_thread",
    "C19_none_lost",
    "C19_call_order"
   ],
   "note": ""
  },
  {
   "property": "C20",
   "status": "proved",
   "theorems": [
    "C20_limit",
    "C20_accept_refuse",
    "C20_full_refuses",
    "C20_refusals",
    "C20_refused_never_runs"
   ],
   "note": ""
  },
  {
   "property": "C21",
   "status": "proved",
   "theorems": [
    "C21_returns_after_run",
    "C21_own_queue_inline"
   ],
   "note": ""
  },
  {
   "property": "C22",
   "status": "partial",
   "theorems": [
    "C22_all_run_before_fini",
    "C22_wait_ends_after",
    "C22_waiters_released",
    "C22_nothing_after",
    "C22_late_requests",
    "C22_executed_before_waiter_partial",
    "C22_refuted"
   ],
   "note": "Everything accepted before the fini callback is called runs exactly once, to its end, before any waiter for the destruction returns, and nothing of the queue happens after its memory is released. The full statement is false of the code (C22_refuted): a request made by the fini callback on its own queue is accepted, reported successful and never run."
  },
  {
   "property": "C23",
   "status": "proved",
   "theorems": [
    "C23_completion_once",
    "C23_completion_after_run",
    "C23_free_only_if_gone"
   ],
   "note": ""
  },
  {
   "property": "C24",
   "status": "proved",
   "theorems": [
    "C24_no_lost_wakeup",
    "C24_places",
    "C24_signal_sent"
   ],
   "note": ""
  },
  {
   "property": "C25",
   "status": "proved",
   "theorems": [
    "C25_no_sleep_on_work",
    "C25_kick_arrives",
    "C25_no_sleep_on_destroy",
    "C25_destroy_ends_loop",
    "C25_event_no_lost_wakeup",
    "C25_event_quiet",
    "C25_event_woken_runs",
    "C25_event_destroy_ends"
   ],
   "note": ""
  },
  {
   "property": "C26",
   "status": "proved",
   "theorems": [
    "C26_exclusion",
    "C26_no_forgotten_waiter",
    "C26_free_lock_is_taken",
    "C26_readers_share",
    "C26_try_fails_only_if_used"
   ],
   "note": "Exclusion and absence of forgotten waiters for any number of clients (below 2^29) and every interleaving; sequentially consistent memory."
  },
  {
   "property": "C27",
   "status": "proved",
   "theorems": [
    "C27_at_most_once",
    "C27_after_last_user",
    "C27_memory_safe",
    "C27_exactly_once",
    "C27_id_after_dtor",
    "C27_index_reuse",
    "C27_caller_free",
    "C27_ids_differ",
    "C27_stale_reference"
   ],
   "note": "Refobj*.v, PropRefobj.v. Any number of threads and objects; memory sequentially consistent; out of memory is a creation that does not happen; the table is unbounded up to the id limit."
  },
  {
   "property": "C28",
   "status": "proved",
   "theorems": [
    "C28_none_starts",
    "C28_none_running",
    "C28_not_found",
    "C28_runs_once",
    "C28_marker_reason"
   ],
   "note": "Refobj*.v, PropRefobj.v. The queue functions of modify-async objects may still be running when destroy returned (PropRefobjEx.async_runs_on), as its documentation says; the loser of two concurrent deleting destroys returns -EINVAL without any such guarantee (loser_returns), except that the reference is gone (C28_not_found)."
  },
  {
   "property": "C29",
   "status": "proved",
   "theorems": [
    "C29_exclusion",
    "C29_refused",
    "C29_ok_means_ran",
    "C29_refused_after_destroy",
    "C29_balanced",
    "C29_recursive_read",
    "C29_abort_reason",
    "C29_destroy_in_write_deadlock",
    "C29_two_queue_writers_abort",
    "C29_nested_queue_write_deadlock"
   ],
   "note": "Refobj*.v, PropRefobj.v, PropRefobjEx.v. Findings: destroy inside the object's own write callback deadlocks silently, two queue functions that both write abort the process, a nested own-queue call that writes deadlocks (all three proved reachable). That a waiting thread is eventually served is not claimed."
  },
  {
   "property": "C30",
   "status": "proved",
   "theorems": [
    "C30_refines",
    "C30_get_own",
    "C30_get_last",
    "C30_create_fresh",
    "C30_set_result",
    "C30_capacity",
    "C30_double_delete_makes_key_unusable"
   ],
   "note": "For programs that delete only keys they created and have not deleted since (deletes_ok), and fewer than 2^64 steps: every execution, any number of threads, any interleaving of the critical sections, is accepted by the small specification machine (incarnations of keys); trace-level corollaries. Findings: a second delete of the same key is accepted and makes the next key created in that slot unusable (C30_double_delete_makes_key_unusable); only 240 keys exist although TLS_KEY_ID_MAX_SIZE is 512 (C30_capacity); tables are keyed by thread id and never removed, so a thread whose id is reused by the system inherits its predecessor's values (thread ids are assumed unique)."
  },
  {
   "property": "C31",
   "status": "partial",
   "theorems": [
    "C31_exact_partial",
    "C31_positions_partial",
    "C31_zero_after_all_freed",
    "C31_one_at_a_time",
    "C31_race_refuted",
    "C31_zero_refuted"
   ],
   "note": "Exact accounting for one call at a time and for every history without the realloc race (C31_exact_partial, C31_positions_partial, C31_zero_after_all_freed, C31_one_at_a_time). C31_race_refuted: realloc releases the old address before it removes its tracking node (mm.c 445-449), so a concurrent malloc that receives that address loses its node. C31_zero_refuted: realloc(p,0) frees the block but keeps its node."
  },
  {
   "property": "C32",
   "status": "partial",
   "theorems": [
    "C32_stream",
    "C32_no_loss",
    "C32_complete",
    "C32_bound",
    "C32_refusals",
    "C32_flush",
    "C32_armed",
    "C32_progress",
    "C32_send_stall_refuted",
    "C32_enomem_refuted",
    "C32_datagrams"
   ],
   "note": "Proved for all sequences of calls, poll results, partial writes and closings: order and completeness of the byte stream, datagram boundaries, the 128 KB bound, refusals, arming and progress for aosl_write. Refuted for aosl_send/sendto with the poll and select back ends (rest of a partial send is never waited for) and for ENOMEM after a partial write."
  },
  {
   "property": "C33",
   "status": "proved",
   "theorems": [
    "C33_conserved",
    "C33_in_buffer",
    "C33_polled",
    "C33_framing",
    "C33_chunking",
    "C33_no_false_end",
    "C33_datagrams"
   ],
   "note": "For every checker that is stable under further bytes: packets are a function of the bytes received, whatever the splitting, buffer size and schedule; conservation and buffer safety for arbitrary stateful, closing callbacks; datagrams one callback per message. post_f (NULL for every caller in the tree) is not modelled."
  },
  {
   "property": "C34",
   "status": "partial",
   "theorems": [
    "C34_size",
    "C34_tail_once",
    "C34_tail_after",
    "C34_tail_completes",
    "C34_counter",
    "C34_least_partial",
    "C34_least_refuted",
    "C34_alloc_least",
    "C34_alloc_partial",
    "C34_alloc_race_refuted"
   ],
   "note": "Size, tail request exactly once and after everything accepted before it, completion, counter meaning, allocation balance: proved for every interleaving. The least-pending choice is proved when nothing else happens during the choice and refuted in general (counters are read one after the other). aosl_mpq_alloc reads the entry after releasing the lock: NULL dereference or wrong queue if the pool is shrunk meanwhile (refuted); proved for histories without shrink_all and with balanced frees."
  },
  {
   "property": "C35",
   "status": "proved",
   "theorems": [
    "C35_initialised_iff_owned",
    "C35_up_while_owned",
    "C35_alternate",
    "C35_unmatched_dtor_harmless"
   ],
   "note": "Any number of threads, every interleaving of the lifecycle lock, the count and the init/fini calls. Init functions are modelled as steps that succeed."
  },
  {
   "property": "C36",
   "status": "proved",
   "theorems": [
    "C36_err_ptr_roundtrip",
    "C36_valid_pointer_not_err",
    "C36_return_err",
    "C36_return_ptr_err",
    "C36_hal_errors"
   ],
   "note": ""
  },
  {
   "property": "C37",
   "status": "proved",
   "theorems": [
    "C37_from_string",
    "C37_unambiguous",
    "C37_str4",
    "C37_str6",
    "C37_roundtrip",
    "C37_huge_buffer"
   ],
   "note": "addr_from_string accepts exactly text4/text6 (InetSpec.v), str gives text4 / canonical text6, exact buffer size, round trip, no access outside the local arrays whatever their uninitialised contents. Finding C37_huge_buffer: the size_t length is cut to int, so a buffer length of 2^32 is refused; on ENOSPC aosl_inet_addr_str still returns the (unwritten) buffer."
  },
  {
   "property": "C38",
   "status": "proved",
   "theorems": [
    "C38_from_ipv4",
    "C38_to_ipv4",
    "C38_roundtrip",
    "C38_nat64_roundtrip",
    "C38_back_and_forth",
    "C38_prefix_last",
    "C38_prefix_cleared",
    "C38_select",
    "C38_ip_equal_4",
    "C38_ip_equal_6",
    "C38_ip_equal_mixed",
    "C38_v4_source_misread",
    "C38_changed_prefix_refused",
    "C38_stale_prefix_kept"
   ],
   "note": "Byte-level model of the socket addresses. Findings: an IPv4 source address is accepted by the IPv6-to-IPv4 direction and misread (C38_v4_source_misread); an address made with one prefix is refused after the prefix changes (C38_changed_prefix_refused); setting NAT64 or a mapped address does not replace an earlier prefix (C38_stale_prefix_kept); aosl_mpq_get_ipv6_prefix hands out a 16 byte type over a 12 byte block; connect_on_q uses the calling queue's prefix, not the target's."
  },
  {
   "property": "C39",
   "status": "proved",
   "theorems": [
    "C39_wrapping_comparison",
    "C39_wrapping_distance_symmetric",
    "C39_wrapping_range",
    "C39_half_range_incomparable"
   ],
   "note": ""
  },
  {
   "property": "C40",
   "status": "partial",
   "theorems": [
    "C40_swab16",
    "C40_swab32",
    "C40_swab64",
    "C40_bswap_mem",
    "C40_bswap_mem_in_place_refuted"
   ],
   "note": "Value-returning functions proved; the in-memory variants do not do what their names say (refuted theorem)."
  },
  {
   "property": "C41",
   "status": "partial",
   "theorems": [
    "C41_no_spurious_wakeup",
    "C41_broadcast_wakes_all",
    "C41_woken_iff_not_blocked",
    "C41_returns_locked",
    "C41_signal_partial",
    "C41_refuted"
   ],
   "note": "C41_refuted: two signals can both go to the first waiter (k_cond_signal posts the head of the list without removing it), so the second waiter stays blocked. Proved: wakes the longest waiter, broadcast wakes all, no spurious wakeups, blocked iff not posted, the mutex is held on return."
  },
  {
   "property": "C42",
   "status": "proved",
   "theorems": [
    "C42_init",
    "C42_add",
    "C42_add_tail",
    "C42_del",
    "C42_del_init",
    "C42_move_same",
    "C42_move_other",
    "C42_queries",
    "C42_next_prev",
    "C42_remove_head",
    "C42_remove_tail",
    "C42_splice_tail_init",
    "C42_for_each",
    "C42_for_each_safe",
    "C42_other_lists"
   ],
   "note": "All operations of the intrusive list on a byte-addressed heap whose unmapped addresses are undefined behaviour; single-threaded, as in the code (the callers hold their own locks). WRITE_ONCE/READ_ONCE are plain accesses."
  },
  {
   "property": "C43",
   "status": "partial",
   "theorems": [
    "C43_listen_on_q",
    "C43_dgram_on_q",
    "C43_stream_on_q",
    "C43_add_fd_on_q",
    "C43_own_queue",
    "C43_own_listen",
    "C43_own_connect",
    "C43_connect_on_q_refuted",
    "C43_connect_on_q_none_refuted",
    "C43_add_fd_too_many_refuted"
   ],
   "note": "Proved for every argument count and values for listen / datagram / stream / any descriptor on another queue and for the own-queue calls. C43_connect_on_q_refuted: aosl_mpq_connect_on_q always drops the last argument; C43_connect_on_q_none_refuted: without arguments it reads memory behind the array; C43_add_fd_too_many_refuted: aosl_mpq_add_fd_on_q returns a positive value on failure, and 57..64 arguments always fail."
  },
  {
   "property": "C44",
   "status": "partial",
   "theorems": [
    "C44_event",
    "C44_event_unique",
    "C44_events_tell_state",
    "C44_network_is_down",
    "C44_is_mobile_net",
    "C44_count_event_partial",
    "C44_nothing_when_unchanged_refuted"
   ],
   "note": "UP/UP_CHANGED/SWITCH/DOWN proved exactly, for every sequence of observations; 'nothing when nothing changed' is false: RT_CNT_CHANGED is also delivered spuriously (refuted theorem). How the default route is read from the system is C55."
  },
  {
   "property": "C45",
   "status": "proved",
   "theorems": [
    "C45_answers",
    "C45_lookup",
    "C45_fini",
    "C45_reuse"
   ],
   "note": "The cache with its 16 hash chains and free list, on the heap model of C42; names longer than 63 characters are truncated, as in the code. Lookups return the structure's content (the C function returns a pointer to it)."
  },
  {
   "property": "C46",
   "status": "partial",
   "theorems": [
    "C46_user_psb_frees_nothing_partial",
    "C46_attached_buffer_freed_refuted"
   ],
   "note": "False as stated: a buffer attached to a packet buffer that has its own one is freed by detach and by free (C46_attached_buffer_freed_refuted); a packet buffer made over a caller's buffer never frees anything, whatever is attached and detached (C46_user_psb_frees_nothing_partial)."
  },
  {
   "property": "C47",
   "status": "proved",
   "theorems": [
    "C47_destructor_runs_exactly_once",
    "C47_kill_destroys",
    "C47_teardown"
   ],
   "note": "Under the history condition of C16 (no remote reschedule under way when the timer is killed)."
  },
  {
   "property": "C48",
   "status": "proved",
   "theorems": [
    "C48_memory_in_place"
   ],
   "note": ""
  },
  {
   "property": "C49",
   "status": "partial",
   "theorems": [
    "C49_refuted",
    "C49_signals_only_waiters_partial",
    "C49_stray_needs_read_grant_partial"
   ],
   "note": "Refuted: C49_refuted exhibits an interleaving in which the waker pulses the event of a reader whose lock call has returned (rwlockimpl.c 92-93). What holds, for any number of clients and every schedule: every signal that reaches a waiter reaches it inside its blocking call (C49_signals_only_waiters_partial), and a late write is always preceded by a read lock granted to that client, so writers are never affected (C49_stray_needs_read_grant_partial)."
  },
  {
   "property": "C50",
   "status": "partial",
   "theorems": [
    "C50_refuted",
    "C50_first_series_partial"
   ],
   "note": "Refuted: __default_accept turns would-block into EHAL, so the listener is closed after its first readability event; proved for every number of waiting connections. What holds: the connections of that first series are passed on in order, each once, all of them unless a callback closes the socket (C50_first_series_partial)."
  },
  {
   "property": "C51",
   "status": "partial",
   "theorems": [
    "C51_set_releases_all",
    "C51_pulse_kept",
    "C51_return_signalled",
    "C51_timeout_reason",
    "C51_blocked_unset",
    "C51_pulse_wakes_one_refuted",
    "C51_pulse_stays_refuted",
    "C51_pulse_merged_refuted",
    "C51_pulse_two_refuted",
    "C51_set_stays_refuted",
    "C51_timeout_eats_pulse_refuted",
    "C51_spurious_refuted"
   ],
   "note": "Proved: set releases everybody and stays until a reset or pulse (C51_set_releases_all, C51_blocked_unset); a pulse is not lost before a waiter returns (C51_pulse_kept); returns are explained (C51_return_signalled, under no spurious wake-ups, C51_timeout_reason). Refuted as documented: a pulse wakes one waiter only, stays pending when nobody waits, two pulses may merge, one pulse may release two, a timed-out waiter may use it up, a pulse ends a set, and a spurious wake-up returns 0."
  },
  {
   "property": "C52",
   "status": "partial",
   "theorems": [
    "C52_init_once",
    "C52_initialised_before_use",
    "C52_init_returns_ready",
    "C52_exclusion",
    "C52_lock_free",
    "C52_init_false_success_refuted",
    "C52_uninitialised_lock_refuted",
    "C52_static_trylock_refuted",
    "C52_static_trylock",
    "C52_trylock_inverted_refuted"
   ],
   "note": "Proved without fini: initialised at most once, never used before initialisation if the HAL's init does not fail, init returns 0 only when ready, mutual exclusion, a free lock is obtained, static trylock returns 0 exactly when it takes the lock. Refuted: with a failing HAL init another thread reports success and locks an uninitialised mutex; static trylock returns a positive number when held; aosl_lock_trylock returns 1 when it takes the lock and 0 when it is held, the documentation says 0 and <0."
  },
  {
   "property": "C53",
   "status": "partial",
   "theorems": [
    "C53_poll_exact",
    "C53_poll_complete",
    "C53_select_exact",
    "C53_hup_after_data",
    "C53_steps_exact",
    "C53_too_many_abort_refuted",
    "C53_starvation_refuted",
    "C53_hangup_ignored_refuted",
    "C53_error_drops_data_refuted"
   ],
   "note": "Reporting and re-arming of one round proved exactly for poll() (C53_poll_exact, C53_poll_complete) and select() (C53_select_exact); hang-up after data for epoll (C53_hup_after_data). The code violates the rest, shown by the _refuted theorems: abort beyond 1024 descriptors, starvation behind 64 busy descriptors, bare hang-up/error never reported by poll/select, epoll error drops data."
  },
  {
   "property": "C54",
   "status": "partial",
   "theorems": [
    "C54_no_use_after_free",
    "C54_released_once",
    "C54_released_last",
    "C54_no_leak",
    "C54_ended_once",
    "C54_closed_silent",
    "C54_own_thread",
    "C54_found",
    "C54_twice_refused",
    "C54_found_once",
    "C54_callback_after_del_refuted",
    "C54_callback_after_close_refuted",
    "C54_stale_delete_refuted",
    "C54_wrong_thread_refuted",
    "C54_failed_add_refuted"
   ],
   "note": "Proved for every interleaving in which registering with the system does not fail: no use after free, released once and last, no leak, ended once, silence after close (unless closed inside the descriptor's own event_f/read_f/write_f), own thread (if no number is used twice), lookup (without aosl_mpq_del_fd, or without reuse of numbers). The remaining parts of the statement are false of the code: the _refuted theorems give the schedules."
  },
  {
   "property": "C55",
   "status": "partial",
   "theorems": [
    "C55_rule",
    "C55_preferred_partial",
    "C55_changes",
    "C55_dump_inside",
    "C55_attrs_inside",
    "C55_metric_zero_refuted",
    "C55_second_datagram_refuted",
    "C55_full_datagram_refuted",
    "C55_length_wraps_refuted",
    "C55_full_notification_refuted"
   ],
   "note": "Proved at the level of bytes: for every list of well-formed messages (one datagram, the end of the dump possibly in a second one) the answer follows the code's rule (C55_rule), which is the preferred route when every default route carries its metric (C55_preferred_partial); change notifications do what their messages mean (C55_changes); for arbitrary bytes attributes stay inside their message and the dump loop ends without leaving the buffer if 12 bytes of it are free. Refuted in the code: a route of metric 0 has no metric attribute and loses to every other (C55_metric_zero_refuted); with a dump in several datagrams the answer is read from an overwritten buffer (C55_second_datagram_refuted); a full buffer is overrun by a bare header or by the type test of __process_rtmsg (C55_full_datagram_refuted, C55_full_notification_refuted); an unaligned notification makes the remaining length wrap and stale bytes are taken for messages (C55_length_wraps_refuted)."
  },
  {
   "property": "C56",
   "status": "partial",
   "theorems": [
    "C56_tick",
    "C56_tick_monotone",
    "C56_deadline",
    "C56_timedwait",
    "C56_sem_timedwait_partial",
    "C56_sem_timedwait_clock_set_refuted",
    "C56_forever_refuted",
    "C56_timeout_code_refuted",
    "C56_queue_wait_partial",
    "C56_queue_wait_limits",
    "C56_long_wait_refuted",
    "C56_far_timer_refuted",
    "C56_msleep_partial",
    "C56_msleep_refuted",
    "C56_tick_us_refuted"
   ],
   "note": "Proved: exact millisecond tick, monotone; exact deadlines (normalising loop ends), no early timeout of condition and event waits; queue waits below 2^31 ms keep the time asked through any interruptions, with all three multiplexers, and end at most 1 ms + system delay late; sleeps below 71 minutes. Refuted: waits of 2^31 ms and more (a far timer makes the queue sleep for ever or not at all), negative timeouts of the condition/semaphore calls (return at once; lib/cond.c relies on them), semaphore waits when the wall clock is set, the documented sign of the timeout code, aosl_msleep beyond 4294967 ms, aosl_tick_us (always 0)."
  },
  {
   "property": "C57",
   "status": "partial",
   "theorems": [
    "C57_frames",
    "C57_success",
    "C57_failure",
    "C57_arguments",
    "C57_at_most_once",
    "C57_init_before_fini",
    "C57_no_deadlock",
    "C57_ends",
    "C57_thread_refused_refuted",
    "C57_failed_fini_refuted",
    "C57_priority_errno_refuted",
    "C57_no_memory_errno_refuted",
    "C57_id_of_freed_queue_refuted",
    "C57_id_read",
    "C57_priority_order",
    "C57_priority_known"
   ],
   "note": "Proved for every interleaving when the system grants the thread: frames, success, failure, at most once, init before fini, no deadlock, bounded number of steps; priority order. Refuted: a thread refused by the system hangs the call; failures on the arguments do not run fini; a bad priority leaves aosl_errno alone; failed allocation of the queue reports errno 0; the id is read from the queue object after it may have been freed."
  },
  {
   "property": "C58",
   "status": "partial",
   "theorems": [
    "C58_one_main_queue",
    "C58_start_allowed_partial",
    "C58_start_refused",
    "C58_failed_start_is_final_refuted",
    "C58_main_id_partial",
    "C58_main_none",
    "C58_exit_ends_main_only",
    "C58_wait",
    "C58_atexit_once",
    "C58_main_id_early_refuted",
    "C58_main_id_refuted",
    "C58_changed_flags_refuted"
   ],
   "note": "Proved: one main queue at a time, EEXIST whenever one exists or is being started, start allowed if none exists and no start has failed, id of the running main queue (fewer than 32768 queues created), exit calls end only main queues, waits return after fini, atexit once. Refuted: after a failed start every later start fails with EEXIST; aosl_mpq_main reports an id during creation, and a wrong one after 32767 created queues; a main queue whose destruction is allowed by aosl_mpq_change_flags leads to a read of the freed queue."
  },
  {
   "property": "C59",
   "status": "partial",
   "theorems": [
    "C59_to_system",
    "C59_to_system_other",
    "C59_from_system",
    "C59_round_trip",
    "C59_from_system_other",
    "C59_get_sockaddr_partial",
    "C59_get_sockaddr_refuted",
    "C59_get_sockaddr_ipv6_refuted",
    "C59_getifaddrs_refuted",
    "C59_wildcard",
    "C59_wildcard_other",
    "C59_port"
   ],
   "note": "Address conversion fully proved. C59_get_sockaddr_partial: what aosl_get_sockaddr really returns. Refuted: the bound address (C59_get_sockaddr_refuted), IPv6 sockets (C59_get_sockaddr_ipv6_refuted), failing getifaddrs (C59_getifaddrs_refuted)."
  },
  {
   "property": "C60",
   "status": "partial",
   "theorems": [
    "C60_entries_partial",
    "C60_not_found",
    "C60_entries_refuted",
    "C60_accepted",
    "C60_refused",
    "C60_at_most_once",
    "C60_progress",
    "C60_many_args_refuted",
    "C60_name_refuted",
    "C60_prefix_refuted"
   ],
   "note": "C60_entries_partial holds for arrays of less than 2^32 entries. Refuted: multiples of 2^32 (C60_entries_refuted), 56..64 arguments (C60_many_args_refuted), the name is read later (C60_name_refuted), resolved IPv6 addresses become the NAT64 prefix (C60_prefix_refuted, with the model of C38). That queues run accepted requests exactly once is C01/C34's subject and is assumed here."
  },
  {
   "property": "C61",
   "status": "partial",
   "theorems": [
    "C61_on_q",
    "C61_descriptors_partial",
    "C61_refused_refuted",
    "C61_interrupted_refuted"
   ],
   "note": "The four *_on_q functions of net/sk_utils.c report honestly in every case (C61_on_q); the other six only while the target queue takes the request (C61_descriptors_partial). Refuted: a refusal by a full nonblocking queue is returned as +1011, by termination of the own queue as +1004, although nothing was done."
  },
  {
   "property": "C62",
   "status": "partial",
   "theorems": [
    "C62_private",
    "C62_no_use_after_free",
    "C62_not_up_aborts",
    "C62_fini_returns",
    "C62_all_freed_partial",
    "C62_leak_refuted",
    "C62_reused_id_refuted",
    "C62_fini_race_refuted"
   ],
   "note": "Privacy, memory safety, termination of the end and the abort outside are proved for all interleavings (the end being called when no thread is inside aosl_errno). That the end frees everything is proved for executions in which at most one thread at a time inserts its cell (C62_all_freed_partial). Refuted: two simultaneous first uses leak a cell; a reused thread id inherits the old value; an end during a use touches freed memory."
  },
  {
   "property": "C63",
   "status": "partial",
   "theorems": [
    "C63_epoll_ctl",
    "C63_epoll_exact",
    "C63_epoll_stale_refuted",
    "C63_poll_ready",
    "C63_poll_exact_partial",
    "C63_poll_junk_refuted",
    "C63_poll_hangup_refuted",
    "C63_select_sets_partial",
    "C63_select_edit_partial",
    "C63_select_big_fd_refuted",
    "C63_timeval",
    "C63_errno",
    "C63_deadline",
    "C63_no_deadline",
    "C63_long_timeout_refuted"
   ],
   "note": "epoll (C63_epoll_ctl, C63_epoll_exact), timeouts (C63_timeval, C63_deadline, C63_no_deadline) and errors (C63_errno) hold; poll exactly only if the stack happens to hold no event bits, select only for descriptors below 1024. Refuted: uninitialised poll masks, poll never reports errors and hang-ups, select beyond 1024, stale epoll flags in a used array, timeouts of 2^31 ms and more."
  },
  {
   "property": "C64",
   "status": "partial",
   "theorems": [
    "C64_uuid",
    "C64_os_version",
    "C64_too_small",
    "C64_rand_partial",
    "C64_rand_returns",
    "C64_rand_size_refuted",
    "C64_rand_hangs_refuted"
   ],
   "note": "The strings are proved in full. Random bytes: proved for sizes below 2^31, and the return only if reads deliver bytes. Refuted: sizes above 2^32; a device at its end."
  },
  {
   "property": "C65",
   "status": "partial",
   "theorems": [
    "C65_size_partial",
    "C65_no_file",
    "C65_read_partial",
    "C65_mkdir_partial",
    "C65_create_partial",
    "C65_size_refuted",
    "C65_mkdir_file_refuted",
    "C65_create_refuted"
   ],
   "note": "Proved for files below 2 GiB; success of mkdir and create proved only as 'something / a file is there'. Refuted: sizes of 2 GiB and more; mkdir on a plain file; create of a file with contents."
  },
  {
   "property": "C66",
   "status": "proved",
   "theorems": [
    "C66_log",
    "C66_level"
   ],
   "note": "Sequential histories; the functions have no lock and concurrent calls are not modelled."
  },
  {
   "property": "C67",
   "status": "partial",
   "theorems": [
    "C67_arg_partial",
    "C67_data_partial",
    "C67_done_qid",
    "C67_running_refobj",
    "C67_received",
    "C67_completion",
    "C67_completion_only",
    "C67_no_vector_refuted"
   ],
   "note": "Proved for every reachable state of the queue's thread, with memory blocks, copies and frees. The one case in which the code breaks the statement: a synchronous call on the own queue with no arguments or empty data passes a NULL vector, so the accessors say that no function is running (EPERM) (C67_no_vector_refuted); the accessor theorems exclude exactly this case."
  },
  {
   "property": "C68",
   "status": "partial",
   "theorems": [
    "C68_tokens_exact",
    "C68_wait_result",
    "C68_returns_locked",
    "C68_timeout_means_no_token",
    "C68_signals_wake_partial",
    "C68_broadcast_wakes_all_partial",
    "C68_blocked_iff_no_token",
    "C68_ticks_partial",
    "C68_broadcast_refuted",
    "C68_no_spurious_refuted",
    "C68_timeouts_refuted"
   ],
   "note": "Proved for every interleaving: tokens are conserved and waiters counted exactly; a wait that returns 0 took exactly one token, one that times out looked again and every token given was taken; returns hold the mutex. The wake-up clauses hold as long as no thread begins to wait between the signal(s) or the broadcast and now (C68_signals_wake_partial, C68_broadcast_wakes_all_partial); the exact failures are C68_broadcast_refuted, C68_no_spurious_refuted, C68_timeouts_refuted. The length of a wait is covered by the number of ticks only."
  },
  {
   "property": "C69",
   "status": "partial",
   "theorems": [
    "C69_freed_exactly",
    "C69_join_after_return",
    "C69_self_partial",
    "C69_self_live",
    "C69_identity_refuted",
    "C69_destroyed_handle_refuted"
   ],
   "note": "Proved for every history: freed exactly once and never used afterwards (C69_freed_exactly), joins (C69_join_after_return), answers are live handles (C69_self_live), the own handle for threads created while fewer than 16 handles were open and whose handle is open (C69_self_partial). The exact failures: C69_identity_refuted (17th and 18th detached thread), C69_destroyed_handle_refuted; in the first nothing was ever given back."
  },
  {
   "property": "C70",
   "status": "partial",
   "theorems": [
    "C70_exclusion",
    "C70_changes_are_atomic",
    "C70_write_refused_only_if_used",
    "C70_no_forgotten_client",
    "C70_no_abort_partial",
    "C70_upgrade_then_unlock_refuted",
    "C70_upgrade_during_downgrade_refuted",
    "C70_two_upgrades_refuted",
    "C70_try_results_refuted",
    "C70_writer_overtaken_refuted"
   ],
   "note": "The model runs on the full model of the raw lock (C26), not on an abstraction of it. Proved for every interleaving: exclusion, atomic upgrade and downgrade, refusals only when used, nobody forgotten; no abort if only one client upgrades and ends each upgrade with a downgrade (C70_no_abort_partial). Refuted: upgrade followed by wrunlock leaves the mark set and a later upgrade aborts the process (C70_upgrade_then_unlock_refuted); an upgrade while another client finishes its downgrade aborts (C70_upgrade_during_downgrade_refuted), as do two upgrades at once (C70_two_upgrades_refuted); writers can be overtaken for ever (C70_writer_overtaken_refuted); the try functions return 1/0 instead of the documented 0/negative (C70_try_results_refuted)."
  },
  {
   "property": "C71",
   "status": "partial",
   "theorems": [
    "C71_join_gets_the_value",
    "C71_released_at_most_once",
    "C71_released",
    "C71_kept",
    "C71_only_join_waits",
    "C71_exit_value_refuted",
    "C71_exit_detached_leaks_refuted",
    "C71_early_detach_refuted",
    "C71_early_destroy_refuted",
    "C71_destroy_after_join_refuted",
    "C71_two_joins_refuted"
   ],
   "note": "Join gets the value of its own thread after it ended, everything is released exactly once and never used afterwards, nothing is released unasked, only join waits: proved for all schedules in which no thread calls aosl_hal_thread_exit and each identifier is passed, after its create returned, to one call. Refuted outside that: a thread that exits through aosl_hal_thread_exit loses its value and leaks; a thread that detaches itself before create has registered it stays undetached; destroy before the end is ignored and leaks; destroy after join (project's tests) can destroy another thread's node when the identifier was reused; two joins use freed memory."
  },
  {
   "property": "C72",
   "status": "partial",
   "theorems": [
    "C72_cause_partial",
    "C72_counter",
    "C72_effect",
    "C72_shrink_one",
    "C72_goes_away",
    "C72_no_limit",
    "C72_wait",
    "C72_executed",
    "C72_cause_refuted",
    "C72_deadlock_refuted",
    "C72_no_circle_partial",
    "C72_destroy_partial",
    "C72_destroy_refuted"
   ],
   "note": "Proved for every interleaving, size, limit and clock: what the checks saw (C72_cause_partial, in checks and, up to the lateness of the first, in time), their effect on the pool (C72_effect, C72_shrink_one, C72_goes_away, C72_no_limit), no overflow of the counter (C72_counter), waiting (C72_wait), a queue ends only after executing what it accepted (C72_executed). Refuted: idle time (C72_cause_refuted: taken out in the millisecond its function ended), two queues waiting for each other for ever (C72_deadlock_refuted, pool of 2, limit 5 as the library's own; C72_no_circle_partial says when it cannot happen), use of the pool after aosl_mpqp_destroy (C72_destroy_refuted; C72_destroy_partial for pools without limit when every call waits)."
  },
  {
   "property": "C73",
   "status": "partial",
   "theorems": [
    "C73_one",
    "C73_refused",
    "C73_result",
    "C73_owner",
    "C73_no_block",
    "C73_thread",
    "C73_callback_partial",
    "C73_first_partial",
    "C73_events",
    "C73_told",
    "C73_released",
    "C73_closes_partial",
    "C73_watch_partial",
    "C73_dead_refuted",
    "C73_callback_refuted",
    "C73_first_refuted",
    "C73_closes_refuted",
    "C73_watch_refuted"
   ],
   "note": "Proved for all schedules: one subscriber, EEXIST/EPERM, the thread the callback runs on, no library descriptor left, the call ends. Partial (the code refutes the full statement, C73_*_refuted): no callback after unsubscribing and the first event need that no callback led to by arriving data unsubscribes; closing only own descriptors and being told need that the system refuses no socket once opened nor a replacement; a destroyed subscriber stays subscribed for ever."
  },
  {
   "property": "C74",
   "status": "partial",
   "theorems": [
    "C74_call",
    "C74_look",
    "C74_created",
    "C74_emptied",
    "C74_holds",
    "C74_no_leak",
    "C74_own_only",
    "C74_left_to_queue",
    "C74_no_bad_close",
    "C74_apart",
    "C74_zero_refuted",
    "C74_errno_refuted",
    "C74_unsubscribed_refuted",
    "C74_stale_refuted",
    "C74_again_refuted"
   ],
   "note": "Proved: what each call asks of the system, leaves in the pair, returns and does to errno (C74_call, C74_look, C74_created, C74_emptied); in correct use every held number is an open socket of that pair, nothing is lost, nothing foreign is closed (C74_holds, C74_no_leak, C74_own_only, C74_left_to_queue, C74_no_bad_close, C74_apart). The rest of the statement is false of the code: C74_zero_refuted, C74_errno_refuted, C74_unsubscribed_refuted, C74_stale_refuted, C74_again_refuted. Calls on one pair are made one at a time; C74_emptied needs CONFIG_AOSL_IPV6 (without it v6 is never set by the library)."
  },
  {
   "property": "C75",
   "status": "partial",
   "theorems": [
    "C75_rt_str",
    "C75_text_partial",
    "C75_bounds_refuted",
    "C75_one_byte_refuted"
   ],
   "note": "Proved: aosl_rt_str for every route and size (C75_rt_str); aosl_def_rt_str for every pair of routes and every buffer from 1 byte that is not tight, i.e. unless both routes are there and 2 <= size < length of the IPv4 text + 3 (C75_text_partial). In every tight case the code overruns the buffer (C75_bounds_refuted gives how far); one-byte buffers report no route (C75_one_byte_refuted). Buffer sizes below 2^31 (len is an int)."
  },
  {
   "property": "C76",
   "status": "partial",
   "theorems": [
    "C76_set",
    "C76_answer",
    "C76_granted",
    "C76_stable",
    "C76_no_null",
    "C76_told",
    "C76_once",
    "C76_ended",
    "C76_times_fixed",
    "C76_exec_refuted"
   ],
   "note": "Proved: C76_set, C76_answer, C76_granted, C76_stable (who may change it), C76_no_null, C76_told, C76_once, C76_ended (what it is told). Missing: the sentence on the times, which is false of the code: C76_times_fixed, C76_exec_refuted (aosl_tick_us is a stub)."
  },
  {
   "property": "C77",
   "status": "partial",
   "theorems": [
    "C77_change",
    "C77_read",
    "C77_other",
    "C77_destroy",
    "C77_wake",
    "C77_kept_partial",
    "C77_sigp_refuted",
    "C77_internal_refuted",
    "C77_minus_refuted"
   ],
   "note": "Proved: C77_change, C77_read, C77_other, C77_destroy, C77_wake (exact condition) and, for changes that leave AOSL_MPQ_FLAG_SIGP_EVENT alone, C77_kept_partial. Missing: the last sentence in general, false of the code: C77_sigp_refuted, C77_internal_refuted, C77_minus_refuted."
  },
  {
   "property": "C78",
   "status": "partial",
   "theorems": [
    "C78_text",
    "C78_short_partial",
    "C78_refused",
    "C78_inside_partial",
    "C78_bounds_refuted",
    "C78_none_refuted"
   ],
   "note": "Proved: C78_text, C78_refused and, for buffers other than of one byte, C78_short_partial, C78_inside_partial. Missing: a buffer of one byte (C78_bounds_refuted) and no entry to show (C78_none_refuted), where the code is wrong."
  },
  {
   "property": "C79",
   "status": "partial",
   "theorems": [
    "C79_dscp",
    "C79_port",
    "C79_device_partial",
    "C79_device_refuted"
   ],
   "note": "Proved: C79_dscp, C79_port (whole) and, for device names of at most 15 bytes, C79_device_partial. Missing: longer names, where the code is wrong (C79_device_refuted). Linux platform."
  }
 ]
}