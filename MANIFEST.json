{
 "claims": [
  {
   "property": "C01",
   "status": "proved",
   "theorems": [
    "C01_sigaction_transparent",
    "C01_signal_transparent",
    "C01_lazy_init"
   ],
   "note": ""
  },
  {
   "property": "C02",
   "status": "proved",
   "theorems": [
    "C02_kernel_control"
   ],
   "note": ""
  },
  {
   "property": "C03",
   "status": "proved",
   "theorems": [
    "C03_dispatch",
    "C03_unmanaged_nothing"
   ],
   "note": ""
  },
  {
   "property": "C04",
   "status": "proved",
   "theorems": [
    "C04_terminate",
    "C04_order"
   ],
   "note": ""
  },
  {
   "property": "C05",
   "status": "proved",
   "theorems": [
    "C05_mask_call",
    "C05_mask_history"
   ],
   "note": ""
  },
  {
   "property": "C06",
   "status": "partial",
   "theorems": [
    "C06_mask_at_call",
    "C06_open_not_blocked_partial",
    "C06_late_client_refuted"
   ],
   "note": "False as stated: a client signal registered after the application installed its handler stays blocked in that handler's mask. Proved for signals kept open before the application's call."
  },
  {
   "property": "C07",
   "status": "proved",
   "theorems": [
    "C07_choice",
    "C07_range",
    "C07_list_fits",
    "C07_env_number"
   ],
   "note": ""
  },
  {
   "property": "C08",
   "status": "partial",
   "theorems": [
    "C08_usable_partial",
    "C08_env_refuted"
   ],
   "note": "False as stated: MONITOR_SHOOTDOWN_SIGNAL=32 is accepted. Proved when neither the environment nor configure asks for a C-library signal."
  },
  {
   "property": "C09",
   "status": "proved",
   "theorems": [
    "C09_sigwait",
    "C09_sigwaitinfo",
    "C09_only_application_signals",
    "C09_client_once",
    "C09_fini_once",
    "C09_live",
    "C09_live_last"
   ],
   "note": ""
  },
  {
   "property": "C10",
   "status": "proved",
   "theorems": [
    "C10_client_result",
    "C10_client_invisible"
   ],
   "note": ""
  },
  {
   "property": "C11",
   "status": "partial",
   "theorems": [
    "C11_safe_no_preload",
    "C11_real_execve",
    "C11_keeps_others_partial",
    "C11_exactly",
    "C11_other_variable_dropped_refuted"
   ],
   "note": "False as stated: a variable whose text merely contains LD_PRELOAD is dropped. Proved when no other variable contains that text."
  },
  {
   "property": "C12",
   "status": "partial",
   "theorems": [
    "C12_arguments_partial",
    "C12_null_first_refuted"
   ],
   "note": "False for an empty argument list: execl(path, NULL) reads past the terminator. Proved for every call whose first argument is not NULL."
  },
  {
   "property": "C13",
   "status": "partial",
   "theorems": [
    "C13_prediction_partial",
    "C13_slash",
    "C13_null",
    "C13_empty_element_refuted",
    "C13_empty_name_refuted",
    "C13_unset_path_refuted",
    "C13_long_path_refuted"
   ],
   "note": "False for unset PATH, over-long elements, empty elements and the empty name; proved otherwise."
  },
  {
   "property": "C14",
   "status": "partial",
   "theorems": [
    "C14_execv",
    "C14_execve",
    "C14_execvp_partial",
    "C14_callbacks_then_failure"
   ],
   "note": "execvp with PATH unset or an over-long PATH element never reaches the real exec (see C13); proved for every other execvp call and for all execv and execve calls."
  },
  {
   "property": "C15",
   "status": "proved",
   "theorems": [
    "C15_application",
    "C15_client",
    "C15_child_application",
    "C15_child_client",
    "C15_null_command",
    "C15_no_override"
   ],
   "note": "One thread in system() at a time; see C52 for several."
  },
  {
   "property": "C16",
   "status": "proved",
   "theorems": [
    "C16_parent",
    "C16_child"
   ],
   "note": ""
  },
  {
   "property": "C17",
   "status": "proved",
   "theorems": [
    "C17_application_call",
    "C17_whole_trace"
   ],
   "note": ""
  },
  {
   "property": "C18",
   "status": "proved",
   "theorems": [
    "C18_application_call",
    "C18_whole_trace"
   ],
   "note": ""
  },
  {
   "property": "C19",
   "status": "proved",
   "theorems": [
    "C19_queries",
    "C19_never_changes"
   ],
   "note": ""
  },
  {
   "property": "C20",
   "status": "partial",
   "theorems": [
    "C20_sigset_safe_partial",
    "C20_list_safe_partial",
    "C20_size_zero_refuted",
    "C20_big_list_refuted"
   ],
   "note": "False for size 0 and for list entries of six digits or more; proved otherwise."
  },
  {
   "property": "C21",
   "status": "proved",
   "theorems": [
    "C21_sigset_exact",
    "C21_list_exact",
    "C21_members",
    "C21_runs_cover",
    "C21_null"
   ],
   "note": ""
  },
  {
   "property": "C22",
   "status": "partial",
   "theorems": [
    "C22_found",
    "C22_error",
    "C22_never_self_partial",
    "C22_own_wrapper_refuted"
   ],
   "note": "Which definition is found, and when it fails, is proved exactly. 'Never libmonitor itself' is false when an object loaded later depends on libmonitor; proved when later objects' dependencies stay among later objects."
  },
  {
   "property": "C23",
   "status": "proved",
   "theorems": [
    "C23_transparent"
   ],
   "note": ""
  },
  {
   "property": "C24",
   "status": "proved",
   "theorems": [
    "C24_mutual_exclusion",
    "C24_trylock",
    "C24_free_lock"
   ],
   "note": "any number of threads, one memory access per step, sequentially consistent memory"
  },
  {
   "property": "C25",
   "status": "proved",
   "theorems": [
    "C25_linearisable",
    "C25_alone",
    "C25_resumed"
   ],
   "note": "load-linked/store-conditional variant (powerpc); the other variants are one atomic instruction"
  },
  {
   "property": "C26",
   "status": "proved",
   "theorems": [
    "C26_history",
    "C26_remove_stale_refuted"
   ],
   "note": "pointer level; the refutation shows the caller rule (element is on a list) is needed"
  },
  {
   "property": "C27",
   "status": "partial",
   "theorems": [
    "C27_init_process_once_partial",
    "C27_init_library_once_and_first",
    "C27_forked_child_gets_init_process",
    "C27_init_process_once_refuted"
   ],
   "note": "Once per image for every schedule whose forks are not made before or inside the first init_process; init_library once and first, and the child's init_process, for every schedule. The refutation: a fork inside init_library gives the child init_process twice."
  },
  {
   "property": "C28",
   "status": "proved",
   "theorems": [
    "C28_exit_callbacks_once_in_order",
    "C28_begin_returns_after_call"
   ],
   "note": "Every schedule of the life-cycle machine."
  },
  {
   "property": "C29",
   "status": "partial",
   "theorems": [
    "C29_exit_waits_partial",
    "C29_no_reentry_partial",
    "C29_reentry_releases_refuted",
    "C29_late_call_refuted"
   ],
   "note": "Proved for forks made by main outside pthread_create and before exit begins, and no late calls of finished threads; then fini_process has returned, or the winner itself re-entered exit (which releases every waiting thread: refuted as first stated)."
  },
  {
   "property": "C30",
   "status": "partial",
   "theorems": [
    "C30_reenter_partial",
    "C30_ignored_thread_refuted",
    "C30_signal_refuted"
   ],
   "note": "Proved for main and registered threads when no signal handler runs between taking the exit token and marking the node. False for ignored threads: they wait for themselves."
  },
  {
   "property": "C31",
   "status": "partial",
   "theorems": [
    "C31_after_fini_process_partial",
    "C31_once_partial",
    "C31_before_fini_process_refuted",
    "C31_reentry_refuted",
    "C31_race_refuted",
    "C31_exec_before_main_refuted"
   ],
   "note": "False as stated (the flag is tested and set without synchronisation, and only after the callback). Proved when two runs of the end function do not overlap, it is not abandoned, exit begins in an initialised process, and forks and late calls as for C29."
  },
  {
   "property": "C32",
   "status": "partial",
   "theorems": [
    "C32_child_partial",
    "C32_create_partial",
    "C32_exit_partial",
    "C32_late_fork_refuted",
    "C32_hang_refuted"
   ],
   "note": "Proved: from every reachable state in which a thread stands at the real fork and no exit had begun, the child exists, gets init_process with the pre_fork data before fork returns, and its exit issues begin_process_exit and fini_process with its own data and ends without waiting; main's child can create a thread, which gets init_thread, if nobody held the library's lock at the fork; in every orderly execution a process goes past exit only after its own fini_process. Refuted: a fork after an exit began gives a child whose exit issues no exit callbacks, or hangs; the held lock is C47_fork_refuted. Missing: threads created by the child of a thread other than main."
  },
  {
   "property": "C33",
   "status": "partial",
   "theorems": [
    "C33_dense",
    "C33_unique",
    "C33_stable_partial",
    "C33_child_starts_at_one_refuted"
   ],
   "note": "Dense, unique and one per thread for every schedule. Stability of the answer is proved for forks made by main outside pthread_create. The numbering of a forked child does not restart at 1 (refuted)."
  },
  {
   "property": "C34",
   "status": "partial",
   "theorems": [
    "C34_once",
    "C34_handover_partial",
    "C34_fork_in_init_thread_refuted"
   ],
   "note": "At most once for every schedule; hand-over proved for forks made by main outside pthread_create. False when a thread forks inside init_thread."
  },
  {
   "property": "C35",
   "status": "partial",
   "theorems": [
    "C35_order_data_partial",
    "C35_once_partial",
    "C35_once_refuted",
    "C35_after_init_refuted"
   ],
   "note": "Proved for forks made by main outside pthread_create and before exit begins, no late calls of finished threads, and (for at most once) no signal between the test and the setting of the thread's flag. False otherwise: a shootdown signal in that window runs fini_thread twice; exit called inside init_thread issues fini_thread before init_thread returned."
  },
  {
   "property": "C36",
   "status": "partial",
   "theorems": [
    "C36_no_late_start",
    "C36_no_late_fini_partial",
    "C36_list_partial"
   ],
   "note": "Registration, init_thread and the start routine for every schedule; fini_thread and the list for forks made by main outside pthread_create and before exit begins."
  },
  {
   "property": "C37",
   "status": "partial",
   "theorems": [
    "C37_waits_partial",
    "C37_own_partial",
    "C37_own_completed_refuted"
   ],
   "note": "For every schedule with forks made by main outside pthread_create and before exit begins and no late calls of finished threads: unless the wait timed out, main and every other thread that had a number and had entered its start routine when the last pass began has returned from fini_thread. The own fini_thread of the exiting thread has been issued, if a thread is not interrupted between setting its flag and the call. That it completed is false: exit called inside the own fini_thread."
  },
  {
   "property": "C38",
   "status": "proved",
   "theorems": [
    "C38_gives_up_only",
    "C38_ten_seconds",
    "C38_waits_for_running_callbacks",
    "C38_done_and_signals"
   ],
   "note": ""
  },
  {
   "property": "C39",
   "status": "partial",
   "theorems": [
    "C39_none_after_partial",
    "C39_timeout_refuted",
    "C39_late_starter_refuted",
    "C39_late_thread_refuted"
   ],
   "note": "If the flag that ends the wait is set at a moment when no thread is between its check of that flag and the start of its fini_thread, then no fini_thread starts after fini_process. Without that condition the property is false: three schedules (the wait times out, a thread past the check, a thread that started late)."
  },
  {
   "property": "C40",
   "status": "partial",
   "theorems": [
    "C40_lists_partial",
    "C40_listed_partial",
    "C40_fork_in_thread_refuted"
   ],
   "note": "Proved for forks made by main outside pthread_create. False in the child of a fork made by another monitored thread."
  },
  {
   "property": "C41",
   "status": "partial",
   "theorems": [
    "C41_queries_partial",
    "C41_main_start_partial",
    "C41_main_bottom_partial",
    "C41_child_partial",
    "C61_process_data_partial",
    "C41_after_fini_refuted",
    "C41_early_bottom_refuted"
   ],
   "note": "Proved up to the return of fini_thread and for forks made by main outside pthread_create; for main's client data also no handler between the return of init_process and the storing of its value. False in thread-specific-data destructors; the main thread's stack bottom is NULL before monitor_main. In the child of a fork by any known thread the stack bottom is kept, the data is what init_process returned, and the process is not threaded."
  },
  {
   "property": "C42",
   "status": "partial",
   "theorems": [
    "C42_ignore_value",
    "C42_no_callbacks_partial",
    "C42_disabled_partial",
    "C42_only_partial",
    "C42_fork_in_pre_create_refuted",
    "C42_disabled_fork_refuted"
   ],
   "note": "Ignore value for every schedule; no callbacks for forks made by main outside pthread_create. False when main forks inside pre_create. Creations by a thread that disabled monitoring give no callbacks, and creations with neither the ignore value nor monitoring disabled are monitored, for forks by main outside pthread_create; the setting is lost in the child of a fork by another thread (refuted)."
  },
  {
   "property": "C43",
   "status": "proved",
   "theorems": [
    "C43_given",
    "C43_null"
   ],
   "note": "Assumes a size the attribute object already has can be set again, and one user of the object at a time (C54)."
  },
  {
   "property": "C44",
   "status": "partial",
   "theorems": [
    "C44_once",
    "C44_after",
    "C44_issued",
    "C44_data_partial",
    "C44_overwritten_refuted",
    "C44_freed_refuted"
   ],
   "note": "Once per call, after the real create, and issued before pthread_create returns: every schedule. The value is the one pre_create returned unless init_thread of the new thread has already returned (libmonitor overwrites the value, and clears it when the thread's record is freed): shown false in general by the two refutations."
  },
  {
   "property": "C45",
   "status": "partial",
   "theorems": [
    "C45_real",
    "C45_only_inside_partial",
    "C45_inside_partial",
    "C45_outside_partial",
    "C45_dangling_refuted",
    "C45_nested_refuted"
   ],
   "note": "In every schedule what is reported is the data of some earlier call of pthread_create. Exactly inside the caller's own call: for schedules without a pthread_create inside the callbacks of another one, without threads leaving one by pthread_exit or cancellation, without ignored threads, and under the conditions of orderly. Shown false without them: an ignored create leaves the pointer to its dead frame, a nested create clears the pointer of the outer one."
  },
  {
   "property": "C46",
   "status": "partial",
   "theorems": [
    "C46_never_waits",
    "C46_concurrent_partial",
    "C46_partial",
    "C46_target_partial",
    "C46_twice_refuted"
   ],
   "note": "Never waits: every schedule. Return value, who is sent the signal and how often: every interleaving with other threads, for schedules of the stated kind and until the thread list is frozen by exit; also for a call run without interruption, which then returns. In every such schedule a target is main or a thread between init_thread and fini_thread. False once exit has begun to shoot down: main can be sent the signal twice."
  },
  {
   "property": "C47",
   "status": "partial",
   "theorems": [
    "C47_wait_partial",
    "C47_own_lock",
    "C47_fatal_refuted",
    "C47_fork_refuted"
   ],
   "note": "False: a fatal signal inside the region of pthread_create that holds the lock hangs the thread for good, and a child forked while another thread holds the lock inherits it for good. Proved when signals stay out of the locked regions and no fork is made while the lock is held."
  },
  {
   "property": "C48",
   "status": "partial",
   "theorems": [
    "C48_shoot_partial",
    "C48_kill_partial",
    "C48_blocked_refuted",
    "C48_main_refuted",
    "C48_main_shoot_refuted",
    "C48_late_refuted",
    "C48_abandoned_refuted"
   ],
   "note": "For every schedule with forks made by main outside pthread_create, before exit and with the lock free: a created thread that never calls block_shootdown is alive whenever it is sent the shootdown signal, and whenever broadcast_signal sends it a signal before exit has frozen the list, provided no thread abandons its cleanup handler. False in general: five schedules (a thread that blocked, main cancelled, a late starter after the wait, an abandoned cleanup handler)."
  },
  {
   "property": "C49",
   "status": "partial",
   "theorems": [
    "C49_deferred_partial",
    "C49_value_partial",
    "C49_interrupted_refuted",
    "C49_nested_refuted"
   ],
   "note": "For main and every thread with a number, in every schedule where no signal handler runs between the test of the flag and the call of fini_thread nor inside block_shootdown: while blocked, fini_thread is issued only if the thread runs the exit code itself. The returned value is exactly whether the shootdown of this process has begun. Unrestricted it is false: two schedules with nested handlers."
  },
  {
   "property": "C50",
   "status": "proved",
   "theorems": [
    "C50_tests",
    "C50_disjoint",
    "C50_weak"
   ],
   "note": ""
  },
  {
   "property": "C51",
   "status": "partial",
   "theorems": [
    "C51_runs_iff",
    "C51_preload_partial",
    "C51_entries",
    "C51_space_refuted"
   ],
   "note": "False for file names containing a space or colon: the loader splits LD_PRELOAD there. Proved otherwise."
  },
  {
   "property": "C52",
   "status": "partial",
   "theorems": [
    "C52_nested_partial",
    "C52_alone_partial",
    "C52_overlap_refuted"
   ],
   "note": "False: two overlapping calls can leave SIGINT ignored for good. Proved for any number of calls that are nested in each other or one after the other (C52_nested_partial)."
  },
  {
   "property": "C53",
   "status": "partial",
   "theorems": [
    "C53_static_partial",
    "C53_same_result",
    "C53_preload_callbacks",
    "C53_closes_what_it_opens",
    "C53_callbacks_refuted",
    "C53_dlopen_lookup_recurses_refuted"
   ],
   "note": "False in the preload build: the fallback uses the overridden dlopen. Proved for the static build."
  },
  {
   "property": "C54",
   "status": "partial",
   "theorems": [
    "C54_alone_partial",
    "C54_overlap_refuted"
   ],
   "note": "False for overlapping calls; proved for a call no other call overlaps."
  },
  {
   "property": "C55",
   "status": "partial",
   "theorems": [
    "C55_inside_partial",
    "C55_below_buffer_refuted"
   ],
   "note": "False when the client asks for a larger stack; proved otherwise."
  },
  {
   "property": "C56",
   "status": "partial",
   "theorems": [
    "C56_link_iff",
    "C56_link_plain_names_partial",
    "C56_words",
    "C56_libraries",
    "C56_space_refuted"
   ],
   "note": "The exact command line is proved for all arguments; 'inserted files are passed as given' is false for names with white space."
  },
  {
   "property": "C57",
   "status": "partial",
   "theorems": [
    "C57_control",
    "C57_shootdown_blocked",
    "C57_nothing_invented",
    "C57_handler_not_invented",
    "C57_answers_partial",
    "C57_in_force_partial",
    "C57_installed_partial",
    "C57_lost_refuted",
    "C57_torn_refuted",
    "C57_bare_mask_refuted",
    "C57_open_blocked_refuted"
   ],
   "note": "Proved for every schedule: the kernel keeps monitor's handler and required flags, the shootdown signal is in the installed mask whenever no call for the signal is running, and reported actions are made of parts that were asked for. Proved for signals whose own calls do not overlap (other signals may): answers, action in force and installed action are those of the calls made one at a time. False when calls for one signal overlap: four schedules show a lost action, a torn action, an installed mask without the shootdown signal, and a reserved signal left blocked."
  },
  {
   "property": "C58",
   "status": "proved",
   "theorems": [
    "C58_main",
    "C58_status",
    "C58_exit_callbacks",
    "C58_start_info",
    "C58_wrap_partial",
    "C58_wrap_refuted"
   ],
   "note": "One thread; for every client and every order of entries. In the static build the count given to monitor_wrap_main is the client's, not main's, when the client changes it (C58_wrap_refuted)."
  },
  {
   "property": "C59",
   "status": "partial",
   "theorems": [
    "C59_command_line_partial",
    "C59_early_refuted",
    "C59_main_args"
   ],
   "note": "Proved when nothing but monitor's constructor enters the library before main; false otherwise (C59_early_refuted): the callback then gets 0 and NULL and is not repeated. The query of main's arguments: every case."
  },
  {
   "property": "C60",
   "status": "proved",
   "theorems": [
    "C60_landmarks",
    "C60_library_once",
    "C60_process_before_main",
    "C60_addr_main",
    "C60_library_first_refuted"
   ],
   "note": "Every call order and build. init_library is not always the first callback: in the static build start_main_init comes first (C60_library_first_refuted)."
  },
  {
   "property": "C61",
   "status": "partial",
   "theorems": [
    "C61_process_data_partial",
    "C61_handler_refuted"
   ],
   "note": "Proved for forks made by main outside pthread_create and when no handler runs between the return of init_process and the storing of its value, from the next action of the thread that returned. False in a handler in that window."
  },
  {
   "property": "C62",
   "status": "partial",
   "theorems": [
    "C62_same_signals_partial",
    "C62_one_shot_refuted",
    "C62_sent_segv_refuted",
    "C62_ignored_fault_refuted"
   ],
   "note": "Equal traces for every nested program without one-shot handlers, with SIGSEGV, SIGBUS and SIGILL from faults only, and no ignored fault. Shown false without each of these: a one-shot handler runs twice, a sent SIGSEGV does not kill, an ignored fault does not kill."
  },
  {
   "property": "C63",
   "status": "partial",
   "theorems": [
    "C63_blocked_call_partial",
    "C63_client_signal",
    "C63_alarm_refuted",
    "C63_sigchld_refuted",
    "C63_client_signal_refuted"
   ],
   "note": "The exact condition for the same outcome. False in general: a handler installed without SA_RESTART no longer interrupts a read, an unhandled SIGCHLD interrupts a pause-like call, and so does the client's own signal."
  },
  {
   "property": "C64",
   "status": "partial",
   "theorems": [
    "C64_exec_partial",
    "C64_exec_mask_partial",
    "C64_chain_partial",
    "C64_nohup_refuted"
   ],
   "note": "The exact condition: dispositions agree unless the application ignores a managed signal. False in general: a program run under nohup no longer ignores SIGHUP after exec."
  },
  {
   "property": "C65",
   "status": "partial",
   "theorems": [
    "C65_handler_mask_partial",
    "C65_shootdown_blocked",
    "C65_alternate_stack_refuted",
    "C65_exclusion_refuted"
   ],
   "note": "Same mask for signals not kept open, when the client gave no mask of its own for the signal. False in general: SA_ONSTACK is removed, and a signal the client took over is not blocked in the application's handler."
  },
  {
   "property": "C66",
   "status": "partial",
   "theorems": [
    "C66_nothing_invented",
    "C66_first_wins_partial",
    "C66_settles_partial",
    "C66_torn_pair_refuted",
    "C66_answer_changes_refuted"
   ],
   "note": "Every schedule: only published values, and stable answers once a client publication has happened and none is running. First publication wins when publications do not overlap. False when they overlap: the size of one with the rank of the other, and an answer that changes."
  },
  {
   "property": "C67",
   "status": "partial",
   "theorems": [
    "C67_same_answer",
    "C67_not_early",
    "C67_exact",
    "C67_bound_partial",
    "C67_never_ends_refuted"
   ],
   "note": "Never early: proved. The time is exactly that of the turns up to the one that answered; at the latest after (restarts+1) times the timeout. False in general: the timeout starts afresh on every restart, so a sampling signal more frequent than the timeout keeps the call waiting for ever."
  },
  {
   "property": "C68",
   "status": "partial",
   "theorems": [
    "C68_safe",
    "C68_no_preload",
    "C68_own_environment_partial",
    "C68_mixed_refuted",
    "C68_lost_refuted"
   ],
   "note": "Memory safety and absence of the preload entry for every schedule. The caller's own environment: always if it does not fit the static array, otherwise if no other call that uses the array overlaps. False when two overlap: mixed or lost variables."
  },
  {
   "property": "C69",
   "status": "partial",
   "theorems": [
    "C69_as_sequential_partial",
    "C69_before_or_after_partial",
    "C69_client_before_or_after_partial",
    "C69_nothing_invented",
    "C69_no_crash_partial",
    "C69_default_crash_refuted",
    "C69_client_crash_refuted",
    "C69_mixed_refuted"
   ],
   "note": "As specified if no call for the signal overlaps the delivery, and before-or-after if calls overlap but not each other and agree about SA_SIGINFO. False in general: a concurrent SIG_DFL or an unregistered client handler makes the delivery call address 0, and a handler can be called with the other action's SA_SIGINFO."
  },
  {
   "property": "C70",
   "status": "partial",
   "theorems": [
    "C70_abort",
    "C70_alone",
    "C70_race_refuted",
    "C70_first_call_refuted"
   ],
   "note": "Proved for every state, with other threads making any calls that do not ask for an action of SIGABRT. False if another thread sets an action for SIGABRT in between, and false if another thread makes the first signal call of the process in between (it installs the library's own handler again and the exit callbacks run)."
  },
  {
   "property": "C71",
   "status": "partial",
   "theorems": [
    "C71_lock_publishes",
    "C71_x86",
    "C71_powerpc",
    "C71_free_again",
    "C71_no_isync_refuted",
    "C71_arm_refuted"
   ],
   "note": "Proved for processors that keep the order of stores (x86) and for those where spinlock_unlock has its barrier and spinlock_lock its isync against loads done early (powerpc; both are needed: without isync it is false). False with the GNU builtin on a processor with unordered stores such as ARM: spinlock_unlock has no barrier there."
  },
  {
   "property": "C72",
   "status": "partial",
   "theorems": [
    "C72_hand_over_partial",
    "C72_reads_latest_partial",
    "C72_unordered_refuted"
   ],
   "note": "Proved where stores reach memory in order and loads are done in order (x86). False on every processor with unordered stores or early loads: no barrier stands between the data and the flag, nor between the loads of the two."
  },
  {
   "property": "C73",
   "status": "partial",
   "theorems": [
    "C73_no_loss_partial",
    "C73_new_array_partial",
    "C73_lost_for_good",
    "C73_failed_create_refuted",
    "C73_blocked_end_refuted",
    "C73_exit_in_init_refuted"
   ],
   "note": "Proved before the exit of the process begins, in a process that is not a forked child, when no real pthread_create fails, no thread ends while it blocks the shootdown signal, and no thread leaves a callback of its own start or end, or a pthread_create, by pthread_exit or cancellation. In three of these cases the record is lost for good, as shown; what is lost in a forked child and at exit is not counted."
  },
  {
   "property": "C74",
   "status": "partial",
   "theorems": [
    "C74_reaches_partial",
    "C74_careful",
    "C74_own_name",
    "C74_each_return",
    "C74_each_entry",
    "C74_signal_refuted",
    "C74_exit_in_handler_refuted",
    "C74_foreign_refuted"
   ],
   "note": "Proved for every pointer when no signal is delivered while monitor_normal_init, monitor_thread_name_init or monitor_signal_init runs and no thread starts without pthread_create before they are over; without any condition for the pointers of fork.c, dlopen.c, the MPI files and those with their own look-up. Otherwise refuted: the run-once macro sets its flag before the initialisation, so a handler or a second thread in that window calls through NULL. C74_each_return counts the returns at the end of a function, not the early ones (out of memory in pthread_create and the like). Comm_size and rank names are as given to the macros; a look-up is taken to find the function or end the process."
  },
  {
   "property": "C75",
   "status": "partial",
   "theorems": [
    "C75_fork_partial",
    "C75_exec_partial",
    "C75_real_execve",
    "C75_sigaction",
    "C75_signal",
    "C75_sigprocmask",
    "C75_sigwaitinfo",
    "C75_sigwaitinfo_keeps",
    "C75_sigwait",
    "C75_system_partial",
    "C75_dl_partial",
    "C75_real_dl",
    "C75_ignored_signal_partial",
    "C75_end_signal_partial",
    "C75_fork_refuted",
    "C75_exec_refuted",
    "C75_system_refuted",
    "C75_dlopen_refuted",
    "C75_signal_errno_refuted"
   ],
   "note": "Unconditional for sigaction, signal, sigprocmask, the sigwait family, monitor_real_execve, monitor_real_dlopen/dlclose, exec of a file that does not look executable, and ignored signals without a client handler. False otherwise: fork, system, dlopen and dlclose call back after the real call, exec of an executable file prints a warning, and the signal handlers run client code, none of them saving errno; proved there when that code leaves errno alone, and each condition refuted when dropped."
  },
  {
   "property": "C76",
   "status": "partial",
   "theorems": [
    "C76_pending_partial",
    "C76_discard_refuted",
    "C76_late_handler_refuted",
    "C76_survives_refuted",
    "C76_other_death_refuted",
    "C76_client_signal_refuted"
   ],
   "note": "Proved for the application's own signals when no call throws a pending signal away and nothing else is pending at a death. Each condition refuted when dropped: an ignored signal is not thrown away by the kernel; the empty mask before the raise lets other blocked handlers run after the end was reported, or lets the process live on, or die of another signal; a signal the client registered for cannot be blocked."
  },
  {
   "property": "C77",
   "status": "partial",
   "theorems": [
    "C77_once_partial",
    "C77_before_partial",
    "C77_threaded_partial",
    "C77_child_refuted",
    "C77_create_in_callback_refuted",
    "C77_exit_in_callback_refuted",
    "C77_twice_refuted",
    "C77_fork_in_window_refuted",
    "C77_threaded_fork_refuted"
   ],
   "note": "Proved for forks by the main thread outside pthread_create. 'Once' needs that no code that interrupts main between the test and the setting of the flag creates a thread; 'before' needs that neither the callback nor code that interrupts main from the test to its return creates a thread, calls pthread_exit or is cancelled there; monitor_is_threaded needs that no handler at the first step of pthread_create forks. Each condition is shown to be needed by a schedule that breaks the claim without it. A forked child gets no init_thread_support of its own."
  },
  {
   "property": "C78",
   "status": "partial",
   "theorems": [
    "C78_parent",
    "C78_child_partial",
    "C78_number_partial",
    "C78_create_partial",
    "C78_thread_data_refuted",
    "C78_late_refuted",
    "C78_hang_refuted",
    "C78_unknown_refuted"
   ],
   "note": "Parent: every state. Child: proved when no exit had begun and the library knows the calling thread; the data fini_process gets is what monitor_get_user_data answered to the caller. 'The data of the process' is false for callers other than main: fini_process of the child gets the data of the thread (refuted). Also false: during an exit the child's exit issues no callbacks or waits for ever, and an unknown thread finds other data. Number 0 and thread creation: for earlier forks made by main outside pthread_create, creation by main with the lock free."
  },
  {
   "property": "C79",
   "status": "partial",
   "theorems": [
    "C79_no_data",
    "C79_pre_create_partial",
    "C79_init_thread_partial",
    "C79_init_process_partial",
    "C79_fork_value",
    "C79_stack_size"
   ],
   "note": "No data, where the argument of init_process comes from, and the stack size: every execution. The three parts about single callbacks inherit the assumptions of C42, C41 and C61 on forks and handlers. Which fork the value belongs to: C16."
  },
  {
   "property": "C80",
   "status": "partial",
   "theorems": [
    "C80_last_thread_partial",
    "C80_cancelled_refuted",
    "C80_child_refuted",
    "C80_not_started_refuted"
   ],
   "note": "Proved: when main has ended, and so when no thread is left, the exit callbacks are over, unless main is cancelled (orderly schedules otherwise). False: main cancelled, or the child of a fork in another thread whose start routine returns (no exit callbacks at all). 'The process goes on' is false: the library treats main's pthread_exit as the exit of the process, so a thread created afterwards ends without running its start routine, although pthread_create reported success."
  },
  {
   "property": "C81",
   "status": "partial",
   "theorems": [
    "C81_predicted",
    "C81_later_exit",
    "C81_expected_partial",
    "C81_no_exit_callbacks_refuted",
    "C81_not_started_refuted"
   ],
   "note": "Proved, for every state, for a file that does not look executable. False for a file that looks executable and that the system refuses: fini_process has then been issued, the later exit issues no callback, and a thread created afterwards ends without running its start routine."
  },
  {
   "property": "C82",
   "status": "partial",
   "theorems": [
    "C82_ends_iff",
    "C82_exit_ends_partial",
    "C82_holder_partial",
    "C82_stuck_fini_refuted",
    "C82_lock_refuted"
   ],
   "note": "C82_ends_iff says exactly when the exit of a thread that runs alone ends: if and only if the process has not used threads, or the lock is free and nobody to wait for is stuck in fini_thread. Callbacks proved when no thread holds the library's lock and no exit was begun before, and: every fini_thread begun is completed, or some thread has not begun its own, or the exiting thread is not main. False otherwise: main's exit waits for ever for a thread whose fini_thread does not return (the 10-second limit does not apply to it), and for a thread that stops while it holds the lock. Proved too when another thread holds the lock: that thread, running alone, frees it in finitely many steps, and then the exit ends (no signal, cancellation or fork inside such a region)."
  },
  {
   "property": "C83",
   "status": "partial",
   "theorems": [
    "C83_override_partial",
    "C83_end_inside",
    "C83_fini_library",
    "C83_err_refuted",
    "C83_quick_refuted",
    "C83_malloc_refuted",
    "C83_join_refuted",
    "C83_sigaction_refuted"
   ],
   "note": "Proved for exit, _exit, _Exit, return from main and fatal signals under the conditions of C82. False for ends inside the C library: err, errx and error give fini_library only (proved for every state), quick_exit nothing. The library's own errors are of this kind; when malloc fails in pthread_create the lock is still held, so an atexit handler that waits for another thread hangs; when the shootdown handler cannot be installed, fini_process is missing after begin_process_exit."
  },
  {
   "property": "C84",
   "status": "partial",
   "theorems": [
    "C84_unhurt_partial",
    "C84_cancel_stays",
    "C84_cancel_refuted",
    "C84_no_post_fork"
   ],
   "note": "Proved when no cancellation reaches a thread while it waits for its command. False otherwise, in every state: monitor_system pushes no cleanup handler, SIGINT and SIGQUIT stay ignored for good whatever they were, the cleanup code runs with SIGCHLD blocked and post_fork is missing (the C library's own system() restores them)."
  },
  {
   "property": "C85",
   "status": "partial",
   "theorems": [
    "C85_bounded_partial",
    "C85_progress",
    "C85_ordinary",
    "C85_returns",
    "C85_all_partial",
    "C85_child_refuted"
   ],
   "note": "The bound is 40 + 3 M steps with at most M threads on the list. Not covered: signals and cancellations that arrive in the caller during the call, and the repeated rounds of waiting in process exit (C82). The wait for the lock may last for ever in the child of a fork that another thread's registration overlapped (C85_child_refuted); C47 says when the lock is released."
  },
  {
   "property": "C86",
   "status": "proved",
   "theorems": [
    "C86_nested",
    "C86_within",
    "C86_left",
    "C86_closed",
    "C86_closed_refuted"
   ],
   "note": "C86_closed_refuted: the condition on pthread_exit is needed (pthread_exit inside init_thread)."
  },
  {
   "property": "C87",
   "status": "partial",
   "theorems": [
    "C87_starts",
    "C87_routine_partial",
    "C87_ends",
    "C87_exit_refuted"
   ],
   "note": "If the thread is not yet on the list, exit must not have frozen it and the lock must be free (C47, C85 for the lock). False once exit has begun: the thread ends without running its routine (C36, C87_exit_refuted). The identity of the routine inherits the condition of C34 on forks."
  },
  {
   "property": "C88",
   "status": "partial",
   "theorems": [
    "C88_same_partial",
    "C88_all_partial",
    "C88_cause_partial",
    "C88_value_partial",
    "C88_fini_last",
    "C88_fini_refuted",
    "C88_init_refuted",
    "C88_late_refuted",
    "C88_main_exit_refuted"
   ],
   "note": "Proved when no cancellation takes effect inside a client callback, no created thread comes to begin after exit has begun and main does not call pthread_exit. False otherwise: fini_thread and init_thread run with cancellation enabled, so a pending cancellation replaces the value the routine returned, or ends the thread before its routine; after exit has begun a created thread ends with NULL without running."
  },
  {
   "property": "C89",
   "status": "partial",
   "theorems": [
    "C89_control",
    "C89_nothing_invented",
    "C89_since_fork",
    "C89_answers_since_fork",
    "C89_installed_since_fork",
    "C89_answers_partial",
    "C89_in_force_partial",
    "C89_torn_refuted",
    "C89_half_refuted",
    "C89_handler_control",
    "C89_handler_answers_partial",
    "C89_handler_in_force_partial"
   ],
   "note": "The agreement with the parent's calls is proved when no thread of the parent was inside a call for the signal at the fork. False otherwise: the child keeps an action that mixes two requests, or is told of an action whose mask the kernel does not have, until it sets the action itself. Calls for one signal are taken not to overlap, as in C57."
  }
 ]
}