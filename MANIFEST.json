{
 "claims": [
  {
   "property": "C01",
   "status": "proved",
   "theorems": [
    "C01_linearizable",
    "C01_fifo"
   ],
   "note": "Every schedule of the step model, any threads, capacity >= 1. Sequentially consistent memory; item constructor does not throw."
  },
  {
   "property": "C02",
   "status": "proved",
   "theorems": [
    "C02_refusal",
    "C02_answers",
    "C04_no_ub"
   ],
   "note": "Assertions never firing is part of C04_no_ub (AssertFailed is an outcome)."
  },
  {
   "property": "C03",
   "status": "proved",
   "theorems": [
    "C03_exclusive",
    "C03_stable",
    "C01_linearizable"
   ],
   "note": "The value read is the one put: rule S_read of the automaton in C01."
  },
  {
   "property": "C04",
   "status": "proved",
   "theorems": [
    "C04_no_ub",
    "C04_capacity0_refuted"
   ],
   "note": "capacity 0 is undefined, proved as a witness for every thread and item."
  },
  {
   "property": "C05",
   "status": "proved",
   "theorems": [
    "C05_layout",
    "C05_wrap_refuted"
   ],
   "note": "Under the no-wrap bound stated in the property; without it refuted."
  },
  {
   "property": "C06",
   "status": "proved",
   "theorems": [
    "C06_progress",
    "C06_lock_free_refuted",
    "C06_self_deadlock_refuted"
   ],
   "note": "Solo progress from quiescent states. The lock-freedom the sources speak of is false, as the claim says (two witnesses: a thread stopped inside, a thread that holds a reference itself)."
  },
  {
   "property": "C07",
   "status": "proved",
   "theorems": [
    "C07_exact",
    "C07_uncut"
   ],
   "note": "Byte-level memory model, any name, text and limit; formatting not throwing."
  },
  {
   "property": "C08",
   "status": "proved",
   "theorems": [
    "C08_format_error",
    "C07_exact"
   ],
   "note": "Exceptions derived from std::exception; the second format call does not throw."
  },
  {
   "property": "C09",
   "status": "proved",
   "theorems": [
    "C09_frame",
    "C09_neighbours"
   ],
   "note": ""
  },
  {
   "property": "C10",
   "status": "proved",
   "theorems": [
    "C10_thread_info"
   ],
   "note": ""
  },
  {
   "property": "C11",
   "status": "proved",
   "theorems": [
    "C11_text",
    "C11_any_thread_name",
    "C11_end_to_end"
   ],
   "note": "From 1970-01-01 00:00:01 on (before, see C15). localtime delivers fields below 100."
  },
  {
   "property": "C12",
   "status": "proved",
   "theorems": [
    "C12_colour",
    "C12_produced",
    "C12_on_screen"
   ],
   "note": "Both evaluation orders of the style arguments. On screen: each part in its colour and style, terminal reset after each record."
  },
  {
   "property": "C13",
   "status": "proved",
   "theorems": [
    "C13_readable",
    "C13_injective",
    "C13_lines",
    "C13_ambiguous_names_refuted"
   ],
   "note": "The condition on names is necessary (witness)."
  },
  {
   "property": "C14",
   "status": "proved",
   "theorems": [
    "C14_exact",
    "C14_bounds",
    "C14_sinks",
    "C14_small_buffer_refuted"
   ],
   "note": "YAML minimum 416; with smaller sizes given through the API the sink overruns (witness)."
  },
  {
   "property": "C15",
   "status": "partial",
   "theorems": [
    "C15_time_partial",
    "C15_first_second_refuted"
   ],
   "note": "False for the first second of 1970 (zero bytes printed)."
  },
  {
   "property": "C16",
   "status": "proved",
   "theorems": [
    "C16_priorities"
   ],
   "note": ""
  },
  {
   "property": "C17",
   "status": "partial",
   "theorems": [
    "C17_single_event_partial",
    "C17_all_first_text",
    "C17_own_text_refuted",
    "C17_fits_iff",
    "C17_overrun_refuted",
    "C17_overrun_schedules_refuted"
   ],
   "note": "False as soon as one flush() finds two events: ptr is not rewound (witness); buffer overrun characterised exactly, and reached with any buffer by two threads."
  },
  {
   "property": "C18",
   "status": "proved",
   "theorems": [
    "C18_rejected_no_effect",
    "C18_accepted_exactly"
   ],
   "note": ""
  },
  {
   "property": "C19",
   "status": "proved",
   "theorems": [
    "C19_output_is_accepted",
    "C19_not_opened"
   ],
   "note": "A file that cannot be opened at construction loses what is flushed until a rotation opens it (C19_not_opened)."
  },
  {
   "property": "C20",
   "status": "proved",
   "theorems": [
    "C20_per_thread_order"
   ],
   "note": ""
  },
  {
   "property": "C21",
   "status": "proved",
   "theorems": [
    "C21_one_flusher"
   ],
   "note": ""
  },
  {
   "property": "C22",
   "status": "proved",
   "theorems": [
    "C22_destruction_complete",
    "C22_destructor_returns"
   ],
   "note": ""
  },
  {
   "property": "C23",
   "status": "partial",
   "theorems": [
    "C23_zero_latency_destruction_refuted",
    "C23_zero_latency_destruction_partial"
   ],
   "note": "False: with zero latency the destructor of file and console sinks writes one event only (witness: two threads). Holds for syslog."
  },
  {
   "property": "C24",
   "status": "proved",
   "theorems": [
    "C24_size_counter",
    "C24_size_exact",
    "C24_size_fits",
    "C24_threshold",
    "C24_threshold_triggers",
    "C24_push_requests_flush"
   ],
   "note": ""
  },
  {
   "property": "C25",
   "status": "partial",
   "theorems": [
    "C25_flush_writes_all_refuted",
    "C25_flush_alone_partial"
   ],
   "note": "False for file and console sinks: one call writes one event (witness). Holds for syslog."
  },
  {
   "property": "C26",
   "status": "partial",
   "theorems": [
    "C26_concurrent_refuted",
    "C26_single_thread_partial"
   ],
   "note": "False with two threads (witness); holds with one."
  },
  {
   "property": "C27",
   "status": "proved",
   "theorems": [
    "C27_files_are_runs",
    "C27_reopen",
    "C27_not_forgotten",
    "C27_next_flush",
    "C27_rotate_requests"
   ],
   "note": "A failing compare_exchange_weak delays the rotation by one flush and does not lose the request."
  },
  {
   "property": "C28",
   "status": "proved",
   "theorems": [
    "C28_crash_prefix",
    "C28_disk_grows"
   ],
   "note": ""
  },
  {
   "property": "C29",
   "status": "partial",
   "theorems": [
    "C29_critical_durable_refuted",
    "C29_asked_partial"
   ],
   "note": "False: flush() gives the record to the stream, not to the operating system (witness, any latency). Holds, in every schedule without spurious failures, if async_flush() was called first with nothing queued."
  },
  {
   "property": "C30",
   "status": "proved",
   "theorems": [
    "C30_push_alone_returns"
   ],
   "note": ""
  },
  {
   "property": "C31",
   "status": "proved",
   "theorems": [
    "C31_auto_fix",
    "C31_wrap_refuted"
   ],
   "note": "Below 2^63; beyond, the product wraps."
  },
  {
   "property": "C32",
   "status": "proved",
   "theorems": [
    "C32_delivery",
    "C32_populated",
    "C32_admits"
   ],
   "note": "Composites without members on an open path: see C34."
  },
  {
   "property": "C33",
   "status": "proved",
   "theorems": [
    "C33_flush",
    "C33_rotate"
   ],
   "note": ""
  },
  {
   "property": "C34",
   "status": "partial",
   "theorems": [
    "C34_empty_composite_refuted",
    "C34_zero_capacity_put_refuted",
    "C34_reached_refuted"
   ],
   "note": "False: undefined behaviour (use of a node of an empty vector) for every admitted level; harmless exactly for rejected levels."
  },
  {
   "property": "C35",
   "status": "proved",
   "theorems": [
    "C35_swallows",
    "C35_always_empty",
    "C35_flush_ends"
   ],
   "note": ""
  },
  {
   "property": "C36",
   "status": "partial",
   "theorems": [
    "C36_reopen_refuted"
   ],
   "note": "False: the destructor stores true into syslog_is_opened_ instead of false."
  },
  {
   "property": "C37",
   "status": "proved",
   "theorems": [
    "C37_rejected",
    "C37_passed_and_flushed"
   ],
   "note": "With C32 and C18."
  },
  {
   "property": "C38",
   "status": "partial",
   "theorems": [
    "C38_level_shown_partial",
    "C38_format_error_refuted"
   ],
   "note": "False for sinks of level CRITICAL and events that cannot be formatted (witness); holds otherwise."
  },
  {
   "property": "C39",
   "status": "proved",
   "theorems": [
    "C39_macro_is_method",
    "C39_sl_log"
   ],
   "note": "Filtering, evaluation of the arguments and delivery, unless the macro is removed by a build option (C40). The message itself: C114."
  },
  {
   "property": "C40",
   "status": "partial",
   "theorems": [
    "C40_options_partial"
   ],
   "note": "False for WITHOUT_DEBUG alone, which removes nothing (Example C40_without_debug_refuted); the exact effect of all combinations is proved."
  },
  {
   "property": "C41",
   "status": "proved",
   "theorems": [
    "C41_group_level"
   ],
   "note": "Groups changed through the system only; guard necessary (Example C41_guard)."
  },
  {
   "property": "C42",
   "status": "proved",
   "theorems": [
    "C42_group_sink"
   ],
   "note": ""
  },
  {
   "property": "C43",
   "status": "proved",
   "theorems": [
    "C43_logger_level",
    "C43_logger_sink"
   ],
   "note": "Sinks: exact equality if roots are made with sinks, else unless the group's sink is null. Guard necessary (Example C43_guard)."
  },
  {
   "property": "C44",
   "status": "proved",
   "theorems": [
    "C44_set_level",
    "C44_reset_level"
   ],
   "note": ""
  },
  {
   "property": "C45",
   "status": "proved",
   "theorems": [
    "C45_set_sink",
    "C45_reset_sink"
   ],
   "note": ""
  },
  {
   "property": "C46",
   "status": "proved",
   "theorems": [
    "C46_set_parent",
    "C46_unset_parent"
   ],
   "note": ""
  },
  {
   "property": "C47",
   "status": "partial",
   "theorems": [
    "C47_no_cycles_partial",
    "C47_cycle_refused",
    "C47_self_parent_refuted"
   ],
   "note": "False: a group can be made its own parent; later calls then recurse for ever (witness). Holds in histories without that."
  },
  {
   "property": "C48",
   "status": "proved",
   "theorems": [
    "C48_outcome"
   ],
   "note": ""
  },
  {
   "property": "C49",
   "status": "proved",
   "theorems": [
    "C49_same_logger",
    "C49_one_live",
    "C49_alive_registered",
    "C49_new_logger"
   ],
   "note": "An unknown sink name is ignored (is_new_logger)."
  },
  {
   "property": "C50",
   "status": "proved",
   "theorems": [
    "C50_falls_back",
    "C50_first_group",
    "C50_stays",
    "C50_set_fallback"
   ],
   "note": "If the fallback group has a sink (else see C55_guard); makeGroup(\"*\") through the API also changes it."
  },
  {
   "property": "C51",
   "status": "proved",
   "theorems": [
    "C51_history",
    "C51_before_configure",
    "C51_once",
    "C51_no_exception",
    "C51_result"
   ],
   "note": ""
  },
  {
   "property": "C52",
   "status": "partial",
   "theorems": [
    "C52_level_kept_partial",
    "C52_sink_kept_partial",
    "C52_root_refuted",
    "C52_cut_off_refuted"
   ],
   "note": "False for roots and for groups cut off from their parent (witnesses); proved for properties set while the group has a parent."
  },
  {
   "property": "C53",
   "status": "proved",
   "theorems": [
    "C53_throws",
    "C53_makes"
   ],
   "note": ""
  },
  {
   "property": "C54",
   "status": "partial",
   "theorems": [
    "C54_atomic_partial",
    "C54_root_atomic_partial",
    "C54_two_makers_partial",
    "C54_stale_refuted"
   ],
   "note": "False: the constructor reads the parent before the lock is taken (witness). Proved for roots, whenever the other call leaves the parent's properties alone, and for two makeGroup at once unless one makes the other's parent anew."
  },
  {
   "property": "C55",
   "status": "proved",
   "theorems": [
    "C55_sinks",
    "C55_get_logger_defined",
    "C55_get_logger_undefined"
   ],
   "note": "The proviso is necessary (Example C55_guard); C55_get_logger_undefined says exactly when getLogger is undefined without it."
  },
  {
   "property": "C56",
   "status": "proved",
   "theorems": [
    "C56_group_level",
    "C56_sink_level",
    "C56_never_ignore"
   ],
   "note": ""
  },
  {
   "property": "C57",
   "status": "proved",
   "theorems": [
    "C57_reserved"
   ],
   "note": ""
  },
  {
   "property": "C58",
   "status": "partial",
   "theorems": [
    "C58_sane_partial",
    "C58_used",
    "C58_defaults",
    "C58_in_use",
    "C58_numbers_refuted"
   ],
   "note": "What reaches a sink is sane if the platform refuses huge buffers. False as stated: a negative buffer size, or text, ends the configuration by an exception instead of a warning (witnesses)."
  },
  {
   "property": "C59",
   "status": "partial",
   "theorems": [
    "C59_reported_partial",
    "C59_silent_refuted",
    "C59_parent_refuted"
   ],
   "note": "False for elements of 'sinks' that are no maps or have no name, and for refused parents (witnesses); everything else is reported, part by part, if no exception ends the configuration."
  },
  {
   "property": "C60",
   "status": "proved",
   "theorems": [
    "C60_tree"
   ],
   "note": ""
  },
  {
   "property": "C61",
   "status": "proved",
   "theorems": [
    "C61_accumulates",
    "C61_previous_fails"
   ],
   "note": ""
  },
  {
   "property": "C62",
   "status": "partial",
   "theorems": [
    "C62_keeps_partial",
    "C62_root_refuted"
   ],
   "note": "False for the sink and level of root groups (witnesses); proved for own levels, own sinks and parents, documents in which no group is listed inside itself and that end without exception."
  },
  {
   "property": "C63",
   "status": "proved",
   "theorems": [
    "C63_well_founded"
   ],
   "note": "Termination of push and flush on such trees: C32, C33. What is skipped and reported: C59_reported_partial."
  },
  {
   "property": "C64",
   "status": "proved",
   "theorems": [
    "C64_numbers",
    "C64_returns"
   ],
   "note": "For fewer than 2^64 threads (the counter is a size_t)."
  },
  {
   "property": "C65",
   "status": "partial",
   "theorems": [
    "C65_first_name_partial",
    "C65_current_name_partial",
    "C65_one_name",
    "C65_event_partial",
    "C65_stale_refuted"
   ],
   "note": "False: the name is kept from its first use (witness). Proved exactly: the name at first use, cut to 15 bytes; the current one if the thread is not renamed afterwards."
  },
  {
   "property": "C66",
   "status": "proved",
   "theorems": [
    "C66_order",
    "C66_complete",
    "C66_names",
    "C66_letters"
   ],
   "note": ""
  },
  {
   "property": "C67",
   "status": "proved",
   "theorems": [
    "C67_logger_calls",
    "C67_system_logger_calls"
   ],
   "note": ""
  },
  {
   "property": "C68",
   "status": "proved",
   "theorems": [
    "C68_make_sink"
   ],
   "note": ""
  },
  {
   "property": "C69",
   "status": "partial",
   "theorems": [
    "C69_clean_iff_partial",
    "C69_applied",
    "C69_silent_refuted"
   ],
   "note": "Well-formed up to the elements of 'sinks' that are skipped silently (witness) and refused parents."
  },
  {
   "property": "C70",
   "status": "proved",
   "theorems": [
    "C70_fallback",
    "C70_throws",
    "C70_configure"
   ],
   "note": ""
  },
  {
   "property": "C71",
   "status": "partial",
   "theorems": [
    "C71_dropped_refuted",
    "C59_reported_partial",
    "C61_accumulates"
   ],
   "note": "False: an exception drops everything found before it (witness). Without exception: C59_reported_partial, C61_accumulates."
  },
  {
   "property": "C72",
   "status": "partial",
   "theorems": [
    "C72_no_cycle_partial",
    "C72_own_child_refuted"
   ],
   "note": "False: a group listed as its own child becomes its own parent silently, and later calls and documents hang (witness). Holds for all other documents."
  },
  {
   "property": "C73",
   "status": "proved",
   "theorems": [
    "C73_configure"
   ],
   "note": "For documents in which no group is listed inside itself (else C72_own_child_refuted)."
  },
  {
   "property": "C74",
   "status": "partial",
   "theorems": [
    "C74_within_latency_refuted",
    "C74_delay_partial",
    "C74_all_written",
    "C74_loggers",
    "C74_syslog"
   ],
   "note": "False for pushes without flush(): a round of the worker writes one event, so the k-th of a burst waits k periods (witness for every k). Proved: bound of k+1 periods; everything is written in the end; loggers used by one thread at a time write at once; a round of a syslog sink writes everything."
  },
  {
   "property": "C75",
   "status": "partial",
   "theorems": [
    "C75_destruction_slow_refuted",
    "C75_destruction_time_partial",
    "C75_destruction_ends",
    "C75_every_schedule_partial"
   ],
   "note": "False: n queued events take n-1 periods. Proved: exactly that long, it ends, everything is written; with any number of threads and every schedule, at most one period per pending event."
  },
  {
   "property": "C76",
   "status": "partial",
   "theorems": [
    "C76_unused_sleeps",
    "C76_sleeps_partial",
    "C90_sleeps_partial",
    "C76_wakes_twice_refuted",
    "C76_syslog_spins_refuted"
   ],
   "note": "False: the worker waits for a time read before the wait, and a flush after a logged event moves next_flush_ meanwhile, so a used file or console sink wakes up to twice per period (both bounds proved; once per period while the sink is unused; C90_sleeps_partial: every schedule of any number of threads); the worker of a syslog sink is a busy loop (next_flush_ is never advanced)."
  },
  {
   "property": "C77",
   "status": "partial",
   "theorems": [
    "C77_visible_refuted",
    "C77_never_flushed",
    "C77_async_flush_partial",
    "C77_async_schedules_partial",
    "C77_answered_once"
   ],
   "note": "False: neither flush() nor the worker flushes the stream unless async_flush() was called (or the buffer was four fifths full). Proved: after async_flush() the next flush that finds an event does, in every schedule without spurious failures."
  },
  {
   "property": "C78",
   "status": "proved",
   "theorems": [
    "C78_level",
    "C78_sink",
    "C78_parent",
    "C78_names"
   ],
   "note": "Effects exactly, for every state. Whether the marks are the documented ones: C112."
  },
  {
   "property": "C79",
   "status": "partial",
   "theorems": [
    "C79_level_refuted",
    "C79_sink_refuted",
    "C79_repaired_partial"
   ],
   "note": "False in every system: the setters of Group do not spread. Proved: the system's own call afterwards has the effect it would have had alone."
  },
  {
   "property": "C80",
   "status": "partial",
   "theorems": [
    "C80_ring_refuted",
    "C80_forest_partial"
   ],
   "note": "False: setParentGroup on the object does not check; two calls make a ring and later calls hang (witness). Holds if the new parent is neither the group nor below it."
  },
  {
   "property": "C81",
   "status": "proved",
   "theorems": [
    "C81_over_the_buffer"
   ],
   "note": "Forward simulation from the sink over the model of CircularBuffer to the sink over the queue of C01."
  },
  {
   "property": "C82",
   "status": "proved",
   "theorems": [
    "C82_accepted_exactly",
    "C82_order",
    "C82_output_is_accepted",
    "C82_buffer_holds_the_rest",
    "C82_one_flusher",
    "C82_destruction_complete",
    "C82_files_are_runs",
    "C82_crash_prefix"
   ],
   "note": "C18-C22, C27 and C28 carried over to the sink with its buffer."
  },
  {
   "property": "C83",
   "status": "proved",
   "theorems": [
    "C83_delivered_as_configured",
    "C83_kept_back_as_configured",
    "C83_undisturbed",
    "C83_same_sink_refuted"
   ],
   "note": "As stated. More cannot be had: if the sink is changed during the call, the sink flushed after the push can be another one than the event went to (C83_same_sink_refuted, sink_ is read twice)."
  },
  {
   "property": "C84",
   "status": "partial",
   "theorems": [
    "C84_alive_refuted",
    "C84_alive_partial",
    "C84_alive_while_set_partial"
   ],
   "note": "False: push does not keep the sink alive; making a second sink of the same name and setting it destroys the first while a thread is inside (witness). Holds if no sink name is used twice, and as long as the logger keeps the sink."
  },
  {
   "property": "C85",
   "status": "proved",
   "theorems": [
    "C85_never_null"
   ],
   "note": "For histories in which roots are made with a sink (guard shown necessary)."
  },
  {
   "property": "C86",
   "status": "proved",
   "theorems": [
    "C86_weak_flags_covered",
    "C86_sequential_included",
    "C86_accepted_exactly",
    "C86_output_is_accepted",
    "C86_one_flusher",
    "C86_destruction_complete",
    "C86_files_are_runs",
    "C86_crash_prefix",
    "C86_rotation_answered_once"
   ],
   "note": "The flags' modification order is not assumed to be the order of the stores; loads may return any value stored so far."
  },
  {
   "property": "C87",
   "status": "partial",
   "theorems": [
    "C87_thread_safe_refuted",
    "C87_races_exactly",
    "C87_system_race_free_partial",
    "C87_system_writes",
    "C87_group_writes"
   ],
   "note": "False as stated: makeGroup with a parent, getFallbackGroup and logging race with setters (all pairs given). Proved: exactly which calls race; the other functions of the system never race with one another (see also C111)."
  },
  {
   "property": "C88",
   "status": "proved",
   "theorems": [
    "C88_no_deadlock",
    "C88_calls_finish",
    "C88_progress",
    "C88_lock_is_balanced"
   ],
   "note": "Loops that spread a change stand for any number of accesses; that they end is C47."
  },
  {
   "property": "C89",
   "status": "proved",
   "theorems": [
    "C89_delay_every_schedule",
    "C89_same_event",
    "C89_every_execution"
   ],
   "note": "On a machine on which time passes only while the worker sleeps and nobody is in flush(); next_flush_ is read at its latest value."
  },
  {
   "property": "C90",
   "status": "partial",
   "theorems": [
    "C90_worker_spins_refuted",
    "C90_sleeps_partial"
   ],
   "note": "False: the worker's flush() returns at once when another thread is in flush(), next_flush_ is not moved, and the worker goes round any number of times at one instant. Proved, in every schedule: at most two wakes per period apart from those after which it was turned away."
  },
  {
   "property": "C91",
   "status": "partial",
   "theorems": [
    "C91_methods_partial",
    "C91_formats_partial",
    "C91_no_brace_partial",
    "C91_view_refuted",
    "C91_buffer_refuted"
   ],
   "note": "False for std::string_view given to a method and for macros: the text is taken as a format. Proved: holds for methods with any other type; the others exactly if there is no brace; otherwise an ERROR event."
  },
  {
   "property": "C92",
   "status": "partial",
   "theorems": [
    "C92_one_at_a_time_partial",
    "C92_make_group_refuted"
   ],
   "note": "False for makeGroup with a parent or a sink, which takes the lock several times. Proved for every function that takes the lock once (all the others, setters on group objects excepted)."
  },
  {
   "property": "C93",
   "status": "partial",
   "theorems": [
    "C93_within_a_period_partial",
    "C93_at_once_partial",
    "C93_happens_partial",
    "C93_at_once_refuted"
   ],
   "note": "False: a notification sent while the worker is on its way to sleep is lost. Proved: within one period in every schedule; at once if the worker sleeps and nobody flushes. Without spurious failures of compare_exchange_weak."
  },
  {
   "property": "C94",
   "status": "partial",
   "theorems": [
    "C94_nested_returns_partial",
    "C94_full_never_returns",
    "C94_zero_latency_never_returns",
    "C94_flush_never_returns",
    "C94_nested_returns_refuted"
   ],
   "note": "False: with a full queue, with latency 0 and for flush()/critical() the nested call waits for ever for the outer event, whatever the other threads do. Proved: with a worker and room in the queue it returns."
  },
  {
   "property": "C95",
   "status": "proved",
   "theorems": [
    "C95_within_buffer",
    "C95_read_back",
    "C95_nothing_missing",
    "C95_read_back_after_crash"
   ],
   "note": "For texts on one line and names without double spaces (what a line-based reader can take apart at all), buffers with room for a line (max(buffer size, 2*max length) >= max length + 95)."
  },
  {
   "property": "C96",
   "status": "partial",
   "theorems": [
    "C96_all_destroyed_partial",
    "C96_no_garbage_partial",
    "C96_settles",
    "C96_ring_stays",
    "C96_all_destroyed_refuted"
   ],
   "note": "False: a group that is its own ancestor (setParentOfGroup(a, a) is accepted, C47) keeps itself and its sink for ever. Proved: without rings what is destroyed is exactly what cannot be got at; rings do not occur in the histories of C47; a ring is never destroyed."
  },
  {
   "property": "C97",
   "status": "partial",
   "theorems": [
    "C97_calls_work_partial",
    "C97_named_partial",
    "C97_groups_partial",
    "C97_named_refuted"
   ],
   "note": "False for the setters of loggers and groups that take a name, which use a dangling reference to the system. Proved: all the others work (that nothing they need is destroyed: C110)."
  },
  {
   "property": "C98",
   "status": "proved",
   "theorems": [
    "C98_push_with_room",
    "C98_async_flush",
    "C98_rotate",
    "C98_async_wakes_the_worker"
   ],
   "note": "The steps of put() on the circular buffer are those of SinkModel (its own retries under contention are in CircModel, C04-C09). Examples: while another thread is in the middle of a flush; both hypotheses (room, latency) are needed."
  },
  {
   "property": "C99",
   "status": "partial",
   "theorems": [
    "C99_before",
    "C99_next_flush_opens_partial",
    "C99_once_open",
    "C99_destructor_writes_nothing",
    "C99_destruction_refuted"
   ],
   "note": "False for the destruction: the sink has no worker, even after the file was opened, and its destructor writes nothing (proved for every history; witness). Proved: nothing is written before, the next flush() after rotate() tries to open it (if compare_exchange_weak does not fail spuriously), nothing flushed afterwards is lost."
  },
  {
   "property": "C100",
   "status": "proved",
   "theorems": [
    "C100_all_calls_return",
    "C100_rounds_exist",
    "C100_no_dead_end"
   ],
   "note": "Turns are counted in rounds of a weakly fair scheduler (each thread once moves, or is seen idle or unable to move); put() and get() are one step each (C01): the spin lock inside them is C123. Calls of the destructor are C119. Examples: a full queue with three threads waiting for one another; capacity zero needs excluding."
  },
  {
   "property": "C101",
   "status": "proved",
   "theorems": [
    "C101_leaf",
    "C101_delivered",
    "C101_never_more",
    "C101_destroyed"
   ],
   "note": "Leaf sinks exist from the start; a call whose behaviour is undefined (composite without members, C34) is not begun. C101_leaf carries C18-C31 over to leaf sinks below composites."
  },
  {
   "property": "C102",
   "status": "proved",
   "theorems": [
    "C102_all_calls_return",
    "C102_rounds_exist",
    "C102_no_dead_end"
   ],
   "note": "Turns are counted in rounds of a weakly fair scheduler, as in C100, with put() and get() one step each; leaf sinks may have been destroyed, but none is being destroyed (C119)."
  },
  {
   "property": "C103",
   "status": "proved",
   "theorems": [
    "C103_within_the_call",
    "C103_records",
    "C103_one_thread",
    "C103_apart",
    "C103_every_execution"
   ],
   "note": "SinkModel with a wall clock; the stamp is taken by the constructor of the event, after its place in the queue."
  },
  {
   "property": "C104",
   "status": "partial",
   "theorems": [
    "C104_sorted_partial",
    "C104_sorted_refuted"
   ],
   "note": "False: the place in the queue is taken before the time is read, so of two overlapping calls the later time can come first (witness). Holds if calls do not overlap."
  },
  {
   "property": "C105",
   "status": "partial",
   "theorems": [
    "C105_no_refusal",
    "C105_goes_on_partial",
    "C105_one_refusal_is_enough",
    "C105_unnoticed",
    "C105_goes_on_refuted"
   ],
   "note": "The claim is false: a stream that has refused ignores what is written later, the code never clears or checks its state. Holds after a rotation that opens the file again, and while nothing is refused."
  },
  {
   "property": "C106",
   "status": "partial",
   "theorems": [
    "C106_std_only_partial",
    "C106_from_the_start",
    "C106_jams",
    "C106_flush_hangs",
    "C106_never_destroyed",
    "C106_release_ends",
    "C106_others_refuted"
   ],
   "note": "The claim is false: only std::exception is caught; the place in the queue is never given back (debug), or the process is terminated (release). The consequences are proved for every continuation; the claim holds while only std::exceptions are thrown."
  },
  {
   "property": "C107",
   "status": "proved",
   "theorems": [
    "C107_nothing_lost",
    "C107_every_execution"
   ],
   "note": ""
  },
  {
   "property": "C108",
   "status": "proved",
   "theorems": [
    "C108_whole",
    "C108_each_sink",
    "C108_every_execution",
    "C108_visible"
   ],
   "note": "One write() on the stream is atomic (standard streams synchronised with stdio)."
  },
  {
   "property": "C109",
   "status": "proved",
   "theorems": [
    "C109_exclusive"
   ],
   "note": ""
  },
  {
   "property": "C110",
   "status": "proved",
   "theorems": [
    "C110_nothing_in_use_destroyed"
   ],
   "note": ""
  },
  {
   "property": "C111",
   "status": "proved",
   "theorems": [
    "C111_logging_race_free"
   ],
   "note": ""
  },
  {
   "property": "C112",
   "status": "partial",
   "theorems": [
    "C112_marked_refuted",
    "C112_marked_partial"
   ],
   "note": "False for roots, and after unsetParentGroup (witnesses). Holds, until the next call about that property, in a group that has a parent."
  },
  {
   "property": "C113",
   "status": "partial",
   "theorems": [
    "C113_whole_records_partial",
    "C113_whole_records_refuted"
   ],
   "note": "False: a stream whose buffer is full passes it on in the middle of a record (witness). Holds while no stream spills."
  },
  {
   "property": "C114",
   "status": "partial",
   "theorems": [
    "C114_message_partial",
    "C114_message_refuted"
   ],
   "note": "False for a single text with braces (witness); agreement proved in all other cases but arrays longer than their text."
  },
  {
   "property": "C115",
   "status": "proved",
   "theorems": [
    "C115_not_given"
   ],
   "note": ""
  },
  {
   "property": "C116",
   "status": "proved",
   "theorems": [
    "C116_every_member"
   ],
   "note": ""
  },
  {
   "property": "C117",
   "status": "proved",
   "theorems": [
    "C117_read_back",
    "C117_read_back_after_crash",
    "C117_console",
    "C117_console_read",
    "C117_syslog",
    "C117_syslog_texts",
    "C117_calls_begin",
    "C117_any_changes"
   ],
   "note": "Composition of the models of the configurator, the system, the composites, the sinks and the records; for file and console sinks with a worker (latency not 0) that could open their file; for syslog sinks, the priorities of the messages, and their texts (of the first event of each flush(), C17), as long as no flush() overruns its buffer (C17)."
  },
  {
   "property": "C118",
   "status": "proved",
   "theorems": [
    "C118_priorities",
    "C118_destroyed",
    "C118_own_text",
    "C118_texts",
    "C118_found",
    "C118_within_buffer",
    "C118_own_flush"
   ],
   "note": "Several events in one flush() all get the text of the first (C118_texts, C17)."
  },
  {
   "property": "C119",
   "status": "proved",
   "theorems": [
    "C119_all_calls_return",
    "C119_no_dead_end",
    "C119_can_close",
    "C119_program_calls_return",
    "C119_program_can_end",
    "C119_program_ends_complete"
   ],
   "note": "put() and get() are one step each (the spin lock inside them: C122, C123). A weak compare-exchange failing spuriously, or a load returning an old value, costs further rounds (each counted in the bound); without that bound the claim fails (C119_old_values_count)."
  },
  {
   "property": "C120",
   "status": "proved",
   "theorems": [
    "C120_configured",
    "C120_asked",
    "C120_asking",
    "C120_asking_says"
   ],
   "note": "The name asked for being alive, the group is not looked at (Example C120_alive_needed); in debug builds getLogger refuses the group name \"*\"."
  },
  {
   "property": "C121",
   "status": "proved",
   "theorems": [
    "C121_defined",
    "C121_any_changes",
    "C121_read_back",
    "C121_read_back_after_crash",
    "C121_console",
    "C121_console_read",
    "C121_syslog",
    "C121_syslog_texts",
    "C121_calls_begin"
   ],
   "note": "Interleaving of single atomic operations, in one global order (sequential consistency). Syslog sinks as in C117: priorities, and texts of the first event of each flush(), unless a flush overruns its buffer."
  },
  {
   "property": "C122",
   "status": "proved",
   "theorems": [
    "C122_no_dead_end",
    "C122_can_end",
    "C122_ends_complete"
   ],
   "note": "That an end can be reached from everywhere; that every schedule with fair locks leads there is C124."
  },
  {
   "property": "C123",
   "status": "partial",
   "theorems": [
    "C123_gets_through_refuted",
    "C123_alone_partial"
   ],
   "note": "False: the spin lock passes a thread over for ever if each of its turns falls into a moment at which the worker holds the lock (witness, all kinds of sinks, any number of rounds). Proved: alone in the buffer a thread leaves it after at most 23 operations of its own; nobody is ever stuck (C122)."
  },
  {
   "property": "C124",
   "status": "proved",
   "theorems": [
    "C124_all_calls_return",
    "C124_rounds_exist",
    "C124_program_calls_return",
    "C124_program_rounds_exist"
   ],
   "note": "Rounds: every thread and worker moves once, or has no call left, or is outside the buffers and cannot move; inside a buffer it must move (fairness of the spin lock; without it false, C123). Spurious outcomes and loads of old values cost further rounds, as in C119; capacities at least one (C94), console and syslog destinations open."
  },
  {
   "property": "C125",
   "status": "proved",
   "theorems": [
    "C125_delay_tight",
    "C125_destruction_tight",
    "C125_wakes_tight",
    "C125_time_included"
   ],
   "note": "C125_time_included: every history of the model in time (C74-C77) is an execution of the model with threads and a clock (C75, C89, C90), so the refutations of C74-C77 hold there too. Messages so small that they do not reach the threshold together."
  },
  {
   "property": "C126",
   "status": "proved",
   "theorems": [
    "C126_sinks",
    "C126_sinks_made",
    "C126_configure",
    "C126_defined",
    "C126_read_back",
    "C126_read_back_after_crash",
    "C126_console",
    "C126_console_read",
    "C126_syslog",
    "C126_syslog_texts",
    "C126_calls_begin",
    "C126_flush_begins",
    "C126_warning",
    "C126_calls_return",
    "C126_ends_complete"
   ],
   "note": "Sinks with a worker (latency not 0) that could open their file, on a platform whose std::vector refuses sizes near 2^64. Syslog: unless a flush() overruns its buffer, with the texts of the first event of each flush (C17). Sinks made later have new names (C84 says what happens otherwise); sinks are destroyed after the system and the loggers (C96)."
  }
 ]
}
