{"id": "C01", "title": "sigaction/signal are transparent to the application", "statement": "For a signal that monitor manages, the application's sigaction()/signal() behave as a private register per signal: every successful call reports as 'old action' exactly the action of the application's own previous successful call for that signal (or the disposition inherited at startup), never monitor's handler and never anything a client registered; out-of-range or kernel-rejected signal numbers return -1/EINVAL (SIG_ERR for signal()) and change nothing; SIGKILL/SIGSTOP are passed straight to the kernel.", "quantifier": "all interleaved histories of application sigaction()/signal() calls and client monitor_sigaction() calls, all signal numbers, actions, flags and masks", "why_tests_cant": "A test samples a few call sequences; the claim is a refinement to an abstract per-signal register over unbounded histories.", "anchors": ["src/signal.c:monitor_appl_sigaction", "src/signal.c:sigaction", "src/signal.c:signal", "src/signal.c:monitor_sigaction", "src/signal.c:monitor_signal_init"]}
{"id": "C02", "title": "Monitor keeps control of every managed signal", "statement": "After initialisation, whatever the application and the client install, the kernel disposition of every managed signal remains monitor's own handler, with SA_SIGINFO and SA_RESTART set, SA_RESETHAND and SA_ONSTACK clear, and with the thread-shootdown signal in its mask; flags other than those four are the ones most recently requested.", "quantifier": "all histories of application and client signal calls, all signals, all flag words and masks", "why_tests_cant": "Holds over unbounded call histories and all 2^32 flag words.", "anchors": ["src/signal.c:monitor_signal_init", "src/signal.c:monitor_adjust_saflags", "src/signal.c:monitor_adjust_samask", "src/signal.c:monitor_appl_sigaction", "src/signal.c:monitor_sigaction"]}
{"id": "C03", "title": "Signal dispatch: client first, then the application's disposition", "statement": "When a managed signal arrives, the client's registered handler (if any) runs first and exactly once; if it returns 0 nothing else happens; otherwise the application's current disposition is applied exactly: ignored signals have no effect, application handlers are called once with the calling convention selected by their SA_SIGINFO flag, and SIG_DFL gets the default action for that signal's class (nothing / stop / terminate).", "quantifier": "all signals, all reachable signal tables, all client return codes", "why_tests_cant": "Depends on every reachable configuration of the table, not on sampled ones.", "anchors": ["src/signal.c:monitor_signal_handler"]}
{"id": "C04", "title": "Fatal signals deliver the exit callbacks before the process dies", "statement": "For a signal whose effective disposition is default-terminate, monitor first runs the process-exit callbacks with how = MONITOR_EXIT_SIGNAL, then (preload build) the library fini callback, then restores SIG_DFL for that signal and empties the mask, and finally re-raises the same signal, except for SIGSEGV/SIGBUS/SIGILL where it returns so the fault recurs; no other disposition is changed.", "quantifier": "all signals and reachable signal tables, both build modes", "why_tests_cant": "All signal numbers and table states must be covered, and the test process dies.", "anchors": ["src/signal.c:monitor_signal_handler", "src/main.c:monitor_end_process_fcn", "src/main.c:monitor_end_library_fcn"]}
{"id": "C05", "title": "The application cannot change the blocked state of kept-open signals", "statement": "No sequence of application sigprocmask()/pthread_sigmask() calls (block, unblock, setmask, invalid how, NULL set) ever changes whether the calling thread blocks a kept-open signal (the configured client signals, the shootdown signal, and every signal with a client handler); for all other signals the resulting mask and the reported old mask are exactly what the system call would have produced.", "quantifier": "all call sequences, all masks, all how values, all keep-open sets growing over time", "why_tests_cant": "Universal over 2^64 masks and unbounded histories.", "anchors": ["src/signal.c:monitor_remove_client_signals", "src/signal.c:sigprocmask", "src/pthread.c:pthread_sigmask"]}
{"id": "C06", "title": "Handler masks do not block client signals", "statement": "The kernel mask installed for an application handler equals the application's requested mask minus the kept-open signals plus the shootdown signal, so a client's sampling signal is never blocked while an application handler runs.", "quantifier": "all signals, requested masks and histories of registrations", "why_tests_cant": "The claim is about every order of client and application registrations.", "anchors": ["src/signal.c:monitor_appl_sigaction", "src/signal.c:monitor_remove_client_signals", "src/signal.c:monitor_adjust_samask"]}
{"id": "C07", "title": "The shootdown signal is chosen by a fixed priority and never changes", "statement": "The shootdown signal is always in 1..NSIG-1, is never SIGKILL/SIGSTOP or a job-control stop signal; a valid MONITOR_SHOOTDOWN_SIGNAL environment value wins, then a valid configure-time value, then the first candidate (real-time signals in ascending order, then SIGUSR2, SIGUSR1, SIGPWR, SIGURG, SIGPIPE) not reserved for the client, then SIGWINCH; once chosen every later query returns the same signal; the candidate list never overflows its array.", "quantifier": "all environment strings, configure values and client signal lists", "why_tests_cant": "All strings and lists; memory safety of the list.", "anchors": ["src/signal.c:monitor_choose_shootdown_early", "src/signal.c:monitor_shootdown_signal"]}
{"id": "C08", "title": "The chosen shootdown signal is one the kernel accepts", "statement": "The signal selected for thread shootdown can actually be installed with sigaction, so process exit of a threaded program never aborts with 'sigaction failed'.", "quantifier": "all environment strings, configure values, client signal lists, and kernel-rejected signal sets", "why_tests_cant": "The environment string is unbounded input; the failing case (a libc-reserved number) is not an obvious test input.", "anchors": ["src/signal.c:monitor_choose_shootdown_early", "src/signal.c:monitor_signal_init", "src/pthread.c:monitor_thread_shootdown"]}
{"id": "C09", "title": "sigwait family returns only signals meant for the application", "statement": "sigwait(), sigwaitinfo() and sigtimedwait() return to the application only (a) a signal in the requested set that was neither accepted by the client handler nor consumed as a shootdown notification, or (b) an error other than EINTR; every earlier kernel result is consumed and the wait restarted; each consumed signal reaches the client handler at most once; return value, errno and *sig follow each function's own convention.", "quantifier": "all sequences of kernel results (signals and errors), all sets, all client return codes, all node states", "why_tests_cant": "Unbounded restart sequences with arbitrary mixes of results.", "anchors": ["src/pthread.c:monitor_sigwait_helper", "src/pthread.c:sigwait", "src/pthread.c:sigwaitinfo", "src/pthread.c:sigtimedwait", "src/signal.c:monitor_sigwait_handler"]}
{"id": "C10", "title": "Client registration is invisible to the application and rejects bad signals", "statement": "monitor_sigaction() returns -1 and changes nothing for a signal number that is out of range, SIGKILL/SIGSTOP or kernel-rejected; otherwise it returns 0, replaces the client's handler for that signal, keeps the signal open from then on, and leaves the application's recorded disposition of every signal unchanged.", "quantifier": "all signals, handlers, act arguments and reachable tables", "why_tests_cant": "Frame property over every signal and reachable state.", "anchors": ["src/signal.c:monitor_sigaction"]}
{"id": "C11", "title": "Unmonitored children get the environment without LD_PRELOAD", "statement": "The environment passed by monitor_real_execve()/monitor_real_system() contains no LD_PRELOAD setting, keeps every other variable unchanged and in order, is NULL-terminated, and building it never writes outside the array allocated for it.", "quantifier": "all environments of any length and contents, any page size", "why_tests_cant": "Unbounded environments; memory safety at every size including the 250-entry threshold.", "anchors": ["src/fork.c:monitor_copy_environ", "src/fork.c:monitor_real_execve", "src/fork.c:monitor_system"]}
{"id": "C12", "title": "execl-style argument lists are passed on unchanged", "statement": "execl(), execlp() and execle() hand the real exec exactly the caller's argument vector including the terminating NULL (and, for execle, the envp that follows it), for any number of arguments, without writing outside the argument array and without reading past the caller's arguments.", "quantifier": "all argument lists of any length, including the empty one", "why_tests_cant": "Array doubling must be right at every length; reading past a variadic list is invisible to tests.", "anchors": ["src/fork.c:monitor_copy_va_args", "src/fork.c:execl", "src/fork.c:execlp", "src/fork.c:execle"]}
{"id": "C13", "title": "execvp success prediction follows the PATH search", "statement": "The prediction whether execlp/execvp will succeed is positive exactly when the name contains a slash and is executable itself, or some PATH element joined with the name is executable, as execvp's own search does; computing it is memory safe for every PATH and file name.", "quantifier": "all PATH strings, all file names, all sets of executable paths", "why_tests_cant": "Unbounded strings, including missing PATH, empty elements and over-long elements.", "anchors": ["src/fork.c:monitor_is_executable"]}
{"id": "C14", "title": "exec runs the exit callbacks iff success is predicted, and always execs", "statement": "Each exec function calls the real exec exactly once with the caller's arguments, and runs the process-exit callbacks (how = MONITOR_EXIT_EXEC) followed by the library fini callback (preload build) before it, if and only if the target tests as executable; if the real exec fails its result is returned unchanged.", "quantifier": "all exec variants, paths, arguments, access() answers and exec results", "why_tests_cant": "All combinations of oracle answers and argument vectors.", "anchors": ["src/fork.c:monitor_execv", "src/fork.c:monitor_execvp", "src/fork.c:monitor_execve"]}
{"id": "C15", "title": "system() has POSIX effects and paired callbacks", "statement": "monitor's system() runs '/bin/sh -c command' once in a child with the caller's original SIGINT/SIGQUIT dispositions and signal mask, waits across EINTR, returns the child's wait status (or -1), leaves the caller's signal dispositions and mask exactly as before on every path, and for application calls issues exactly one pre_fork and one post_fork with matching data; the client variant issues no callbacks and strips LD_PRELOAD; a NULL command only tests the shell.", "quantifier": "all commands, signal dispositions, masks, fork results, wait result sequences and environments", "why_tests_cant": "Unbounded EINTR sequences and arbitrary prior signal state on every path.", "anchors": ["src/fork.c:monitor_system", "src/fork.c:system", "src/fork.c:monitor_real_system"]}
{"id": "C16", "title": "fork delivers pre_fork / post_fork / init_process with the same data", "statement": "An application fork()/vfork() calls pre_fork once before forking; the value it returns is passed to post_fork once in the parent (also when fork fails) and to init_process once in the child; the fork result is returned unchanged in both.", "quantifier": "all fork outcomes, callback values and prior process states", "why_tests_cant": "Requires all outcomes and prior states, in two processes.", "anchors": ["src/fork.c:monitor_fork", "src/main.c:monitor_begin_process_fcn"]}
{"id": "C17", "title": "MPI init callbacks once per application call", "statement": "For every application call of MPI_Init/MPI_Init_thread (C, Fortran or PMPI entry), however deeply the library re-enters the other entry points, exactly one mpi_pre_init callback is issued before anything else and exactly one init_mpi callback after the real call finishes, and sequential application calls each get their own pair.", "quantifier": "all finite call trees of nested MPI entry points and all sequences of them", "why_tests_cant": "Unbounded nesting trees.", "anchors": ["src/mpi.c:monitor_mpi_init_count", "src/mpi_init_c.c", "src/mpi_init_f0.c", "src/mpi_init_thread_c.c", "src/pmpi.c"]}
{"id": "C18", "title": "MPI finalize callbacks once per application call", "statement": "For every application call of MPI_Finalize through any entry point and any nesting, exactly one fini_mpi callback precedes the real call and exactly one mpi_post_fini follows it.", "quantifier": "all finite call trees of nested MPI entry points and all sequences of them", "why_tests_cant": "Unbounded nesting trees.", "anchors": ["src/mpi.c:monitor_mpi_fini_count", "src/mpi_final_c.c", "src/mpi_final_f0.c", "src/pmpi.c"]}
{"id": "C19", "title": "MPI size and rank are set once and never change", "statement": "monitor_mpi_comm_size/rank report -1 until published; the first publication wins - either the client's monitor_set_size_rank() or the first MPI_Comm_rank() call made after some MPI init has started and outside every MPI init - and afterwards the pair never changes; size and rank always come from the same publication.", "quantifier": "all histories of MPI calls (nested) and client publications", "why_tests_cant": "First-wins over unbounded nested histories.", "anchors": ["src/mpi.c:monitor_set_size_rank", "src/mpi.c:monitor_set_mpi_size_rank", "src/mpi_comm_c.c", "src/pmpi.c"]}
{"id": "C20", "title": "Signal-set printing never overruns its buffer", "statement": "monitor_sigset_string() and monitor_signal_list_string() never write outside a buffer of the given size and always leave a terminated string in it, for every signal set, signal list and buffer size.", "quantifier": "all buffer sizes, all signal sets, all -1-terminated lists", "why_tests_cant": "All sizes and sets; overruns of one byte are invisible to tests.", "anchors": ["src/utils.c:monitor_sigset_string", "src/utils.c:monitor_signal_list_string"]}
{"id": "C21", "title": "Signal-set printing is exact when it fits", "statement": "When the functions do not report -1, the text decodes (as comma-separated numbers and ranges) to exactly the members of the set in ascending order (the list in order), and the return value is the number of signals; -1 is returned iff the text does not fit the item budget.", "quantifier": "all signal sets and lists, all buffer sizes", "why_tests_cant": "Round-trip over every set.", "anchors": ["src/utils.c:monitor_sigset_string", "src/utils.c:monitor_signal_list_string"]}
{"id": "C22", "title": "Real-function lookup never resolves to monitor itself or an earlier object", "statement": "monitor_dlsym() returns the next-object definition if the loader finds one; otherwise the definition in the first loaded object after libmonitor that can be opened and defines the symbol; it never returns a definition from libmonitor or from an object before it, and terminates with an error exactly when no such definition exists.", "quantifier": "all lists of loaded objects and symbol tables", "why_tests_cant": "All load orders and symbol tables.", "anchors": ["src/common.c:monitor_dlsym", "src/common.c:phdr_callback"]}
{"id": "C23", "title": "dlopen/dlclose wrappers are transparent and ordered", "statement": "dlopen()/dlclose() call the real function exactly once with the caller's arguments, the pre callback before and the post callback after with the real result, and return that result; the monitor_real_* variants issue no callbacks.", "quantifier": "all paths, flags, handles and results", "why_tests_cant": "All results and nesting of calls from callbacks.", "anchors": ["src/dlopen.c:dlopen", "src/dlopen.c:dlclose", "src/dlopen.c:monitor_real_dlopen", "src/dlopen.c:monitor_real_dlclose"]}
{"id": "C24", "title": "The spinlock gives mutual exclusion", "statement": "At most one thread is ever between a successful lock (or trylock) and the matching unlock, a failed trylock has no effect and never waits, and a free lock can always be taken.", "quantifier": "any number of threads, every interleaving of individual loads, compare-and-swaps and stores", "why_tests_cant": "All schedules of any number of threads.", "anchors": ["src/spinlock.h:spinlock_lock", "src/spinlock.h:spinlock_unlock", "src/spinlock.h:spinlock_trylock", "src/atomic.h:compare_and_swap"]}
{"id": "C25", "title": "compare_and_swap from load-linked/store-conditional is atomic", "statement": "On the powerpc build, every completed compare_and_swap behaves as if it executed atomically at one instant between call and return: it returns the value at that instant and stores the new value iff that equals the expected value - despite spurious store-conditional failures and interleaved writes.", "quantifier": "any number of threads, all interleavings, all spurious failures", "why_tests_cant": "All schedules and unbounded retries.", "anchors": ["src/atomic.h:compare_and_swap", "src/atomic.h:load_linked", "src/atomic.h:store_conditional"]}
{"id": "C26", "title": "Linked-list operations implement a sequence", "statement": "Inserting at the head and removing an element of monitor's intrusive doubly-linked lists, at pointer level, implement cons and deletion on the abstract sequence, leave all other lists untouched and never dereference an invalid pointer, for any list containing the element.", "quantifier": "all well-formed lists of any length, all positions", "why_tests_cant": "All lengths and positions at pointer level.", "anchors": ["src/queue.h:LIST_INSERT_HEAD", "src/queue.h:LIST_REMOVE", "src/queue.h:LIST_INIT"]}
{"id": "C27", "title": "init_process runs at most once per process and before everything thread-related", "statement": "In one process image the init_process callback is issued at most once however many threads enter main, pthread_create or monitor_initialize concurrently; the library init callback is issued at most once ever and before it; a forked child (fork/vfork) gets exactly one more init_process.", "quantifier": "all interleavings of any number of threads and all client/application behaviours", "why_tests_cant": "All schedules.", "anchors": ["src/main.c:monitor_begin_process_fcn", "src/main.c:monitor_begin_library_fcn", "src/main.c:monitor_initialize", "src/main.c:monitor_main"]}
{"id": "C28", "title": "fini_process runs at most once per process", "statement": "In one process image the begin_process_exit and fini_process callbacks are each issued at most once, in that order and by the same thread, however many threads concurrently or repeatedly call exit, _exit, pthread_exit from main, return from main, exec, or die from a signal, including from inside callbacks and signal handlers.", "quantifier": "all interleavings of any number of threads, re-entrant exits, signals at any point", "why_tests_cant": "All schedules and interrupt points.", "anchors": ["src/main.c:monitor_end_process_fcn"]}
{"id": "C29", "title": "Threads racing to exit wait for fini_process", "statement": "No thread proceeds past the exit override to the real exit before the fini_process callback has returned, except when the thread running the exit callbacks itself re-enters exit; that thread then proceeds at once instead of deadlocking.", "quantifier": "all interleavings, re-entrant exits", "why_tests_cant": "All schedules.", "anchors": ["src/main.c:monitor_end_process_fcn"]}
{"id": "C30", "title": "Re-entrant exit never deadlocks", "statement": "A thread that calls exit again from inside one of its own exit callbacks does not block.", "quantifier": "all threads (monitored, ignored, main) and all callbacks", "why_tests_cant": "The blocking case depends on thread kind and callback, and a hang is not a test outcome.", "anchors": ["src/main.c:monitor_end_process_fcn", "src/pthread.c:monitor_get_tn"]}
{"id": "C31", "title": "fini_library runs at most once per process and after fini_process", "statement": "The fini_library callback is issued at most once per process image and only after the fini_process callback.", "quantifier": "all interleavings and re-entrant exits", "why_tests_cant": "All schedules.", "anchors": ["src/main.c:monitor_end_library_fcn", "src/main.c:_exit", "src/main.c:monitor_library_fini_destructor"]}
{"id": "C32", "title": "A forked child has its own exit callbacks", "statement": "After an application fork the child is a fresh process: it gets init_process and, when it exits, its own begin_process_exit and fini_process, it does not hang at exit, and it can create threads.", "quantifier": "all states of the parent at the time of the fork", "why_tests_cant": "The parent may fork at any point of any schedule.", "anchors": ["src/fork.c:monitor_fork", "src/main.c:monitor_begin_process_fcn", "src/pthread.c:monitor_reset_thread_list", "src/main.c:monitor_end_process_cookie"]}
{"id": "C33", "title": "Thread numbers are unique, dense and start at 1", "statement": "Every monitored thread gets a thread number different from every other thread ever numbered in the process (main is 0); numbers are handed out as 1,2,3,... without gaps and do not change while the thread lives.", "quantifier": "any number of threads, all interleavings", "why_tests_cant": "All schedules and counts.", "anchors": ["src/pthread.c:monitor_link_thread_node", "src/pthread.c:monitor_get_thread_num"]}
{"id": "C34", "title": "init_thread precedes the start routine and hands over the data", "statement": "A monitored thread's start routine runs with its own argument only after its init_thread callback returned; init_thread is issued at most once per thread, by that thread, with its own number and the data pre_create returned for it.", "quantifier": "all interleavings of creating and created threads", "why_tests_cant": "All schedules.", "anchors": ["src/pthread.c:monitor_begin_thread", "src/pthread.c:pthread_create"]}
{"id": "C35", "title": "fini_thread runs at most once per thread, after init_thread, with its data", "statement": "The fini_thread callback is issued at most once for each monitored thread, only after its init_thread returned, and with the data init_thread returned.", "quantifier": "all interleavings, cancellation and signals at every point, every way a thread or process can end", "why_tests_cant": "All schedules and interrupt points, in particular a shootdown signal inside the cleanup handler.", "anchors": ["src/pthread.c:monitor_pthread_cleanup_routine", "src/pthread.c:monitor_shootdown_handler", "src/pthread.c:monitor_sigwait_helper", "src/pthread.c:monitor_thread_shootdown"]}
{"id": "C36", "title": "No application thread starts after exit has begun", "statement": "Once process exit has frozen the thread list, a thread created but not yet registered never runs its start routine or callbacks, and the list of threads the exit code walks no longer changes (other than adding main).", "quantifier": "all interleavings of thread creation with exit", "why_tests_cant": "All schedules.", "anchors": ["src/pthread.c:monitor_link_thread_node", "src/pthread.c:monitor_unlink_thread_node", "src/pthread.c:monitor_thread_shootdown"]}
{"id": "C37", "title": "Exit waits for every started thread's fini_thread", "statement": "When the exit code proceeds to fini_process without a timeout, every monitored thread that had started application code when last examined has completed its fini_thread callback (or is the exiting thread itself, whose fini_thread also completed).", "quantifier": "all interleavings, any number of threads", "why_tests_cant": "All schedules.", "anchors": ["src/pthread.c:monitor_thread_shootdown"]}
{"id": "C38", "title": "The shootdown timeout is only for lack of progress", "statement": "The exit code gives up waiting only if some thread has not even begun its fini_thread and more than 10 seconds passed since the number of begun callbacks last increased; it never gives up while every remaining thread is already inside its callback.", "quantifier": "all sequences of scan results and clock values", "why_tests_cant": "Unbounded sequences of timings.", "anchors": ["src/pthread.c:monitor_thread_shootdown"]}
{"id": "C39", "title": "No fini_thread after fini_process has begun", "statement": "No fini_thread callback is issued after the fini_process callback has begun.", "quantifier": "all interleavings, with and without timeout", "why_tests_cant": "All schedules.", "anchors": ["src/pthread.c:monitor_pthread_cleanup_routine", "src/pthread.c:monitor_shootdown_handler", "src/pthread.c:monitor_fini_thread_done"]}
{"id": "C40", "title": "The thread list stays well formed and nodes are never shared", "statement": "At every moment the registered-thread list and the free list are disjoint, duplicate-free and correctly linked, and a thread node is owned by at most one live thread.", "quantifier": "all interleavings of any number of threads creating, registering, finishing and exiting", "why_tests_cant": "All schedules at pointer level.", "anchors": ["src/pthread.c:monitor_make_thread_node", "src/pthread.c:monitor_link_thread_node", "src/pthread.c:monitor_unlink_thread_node", "src/pthread.c:monitor_reset_thread_list"]}
{"id": "C41", "title": "Per-thread queries answer for the calling thread", "statement": "monitor_get_thread_num, monitor_get_user_data and monitor_get_addr_thread_start return the number, client data and start routine of the calling thread (0 and the process data for the main thread; -1/NULL for an ignored thread), and monitor_stack_bottom the bottom of the calling thread's own stack (for the main thread from the at_main callback on).", "quantifier": "all threads and all reachable states", "why_tests_cant": "All schedules.", "anchors": ["src/pthread.c:monitor_stack_bottom", "src/pthread.c:monitor_get_tn", "src/pthread.c:monitor_get_thread_num", "src/pthread.c:monitor_get_user_data", "src/pthread.c:monitor_get_addr_thread_start"]}
{"id": "C42", "title": "Ignored threads get no thread callbacks", "statement": "A thread created while the creating thread has new threads disabled, or for which pre_create returns the ignore value, runs the application's own start routine and argument directly and never gets init_thread or fini_thread.", "quantifier": "all interleavings", "why_tests_cant": "All schedules.", "anchors": ["src/pthread.c:pthread_create", "src/pthread.c:monitor_disable_new_threads", "src/monitor.h:MONITOR_IGNORE_NEW_THREAD"]}
{"id": "C43", "title": "Stack-size adjustment leaves the caller's attributes unchanged", "statement": "pthread_create leaves the application's attribute object with its original stack size, whatever the client's reset_stacksize returns and whichever attribute calls fail; the new thread gets the client's size when it could be set and the original attributes otherwise; a default attribute object monitor initialised is destroyed exactly once and no other is destroyed.", "quantifier": "all attribute pointers, sizes, client answers and failure combinations", "why_tests_cant": "All failure combinations and sizes.", "anchors": ["src/pthread.c:monitor_adjust_stack_size", "src/pthread.c:pthread_create"]}
{"id": "C44", "title": "post_create gets the data pre_create returned", "statement": "The thread_post_create callback is issued once per monitored pthread_create, after the real create, with the value thread_pre_create returned.", "quantifier": "all interleavings of the creating and the created thread", "why_tests_cant": "The created thread may run, finish and be recycled before the creator continues.", "anchors": ["src/pthread.c:pthread_create"]}
{"id": "C45", "title": "New-thread info is available only inside pthread_create", "statement": "monitor_get_new_thread_info() succeeds exactly when called by a thread that is inside its pthread_create override, and then reports that call's start routine and return address; outside it returns 1 and never reads a dead stack frame.", "quantifier": "all call histories, including ignored threads and nested creates from callbacks", "why_tests_cant": "Reading a dead frame is invisible to tests.", "anchors": ["src/pthread.c:monitor_get_new_thread_info", "src/pthread.c:pthread_create"]}
{"id": "C46", "title": "broadcast_signal reaches every other live thread once and never blocks", "statement": "monitor_broadcast_signal() never waits; if it returns 0 every registered thread in application code other than the caller, and main unless it is the caller, has been sent the signal exactly once and nobody else; if it returns -1 nothing was sent.", "quantifier": "all reachable thread lists and lock states", "why_tests_cant": "All list contents and lock states.", "anchors": ["src/pthread.c:monitor_broadcast_signal"]}
{"id": "C47", "title": "Monitor's locks cannot be held across a signal that needs them", "statement": "A fatal signal arriving at any point does not deadlock the thread it interrupts, and a forked child never inherits a held lock.", "quantifier": "all interrupt points and fork points", "why_tests_cant": "Interrupt points are not controllable in tests.", "anchors": ["src/pthread.c:monitor_thread_lock", "src/signal.c:monitor_signal_handler", "src/pthread.c:monitor_reset_thread_list"]}
{"id": "C48", "title": "Every registered thread is alive", "statement": "Every thread on the list that exit and broadcast walk is a thread that has not terminated, so signals are only sent to live threads.", "quantifier": "all interleavings, with and without block_shootdown", "why_tests_cant": "All schedules; signalling a dead thread is undefined behaviour.", "anchors": ["src/pthread.c:monitor_pthread_cleanup_routine", "src/pthread.c:monitor_block_shootdown", "src/pthread.c:monitor_unlink_thread_node"]}
{"id": "C49", "title": "block_shootdown defers the fini_thread callback", "statement": "Between monitor_block_shootdown() and monitor_unblock_shootdown() a shootdown signal does not run fini_thread in that thread; the return value of block_shootdown tells whether exit cleanup has started.", "quantifier": "all interleavings with signals at every point", "why_tests_cant": "All schedules and interrupt points.", "anchors": ["src/pthread.c:monitor_block_shootdown", "src/pthread.c:monitor_unblock_shootdown", "src/pthread.c:monitor_shootdown_handler"]}
{"id": "C50", "title": "Start-function address tests are nested intervals", "statement": "For any placement of the start functions in memory with their labels in source order, an address accepted by the narrow test is accepted by the wide test, the process/thread bottom-frame tests accept exactly the corresponding function body, and addresses outside both bodies are rejected.", "quantifier": "all addresses and all label placements", "why_tests_cant": "All addresses.", "anchors": ["src/main.c:monitor_in_main_start_func_wide", "src/main.c:monitor_in_main_start_func_narrow", "src/pthread.c:monitor_in_start_func_wide", "src/pthread.c:monitor_in_start_func_narrow", "src/pthread.c:monitor_unwind_thread_bottom_frame"]}
{"id": "C51", "title": "monitor-run preloads the inserted files before libmonitor and keeps the old preload", "statement": "monitor-run runs the command with its arguments unchanged and with LD_PRELOAD listing the -i files in order, then libmonitor, then the previous value; unknown options, missing option arguments and missing files are rejected before anything is run.", "quantifier": "all argument vectors, environments and file systems", "why_tests_cant": "Unbounded argument vectors.", "anchors": ["src/monitor-run.in"]}
{"id": "C52", "title": "Overlapping system() calls leave the signal dispositions as they were", "statement": "When several threads call system() at overlapping times, then after all calls have returned the process's SIGINT and SIGQUIT dispositions and each thread's mask are what they were before.", "quantifier": "any number of threads, every interleaving of their kernel calls", "why_tests_cant": "Depends on the interleaving of the save and restore calls.", "anchors": ["src/fork.c:monitor_system"]}
{"id": "C53", "title": "Finding a real function is invisible to the client and ends", "statement": "Looking up a real C library function never runs a client callback and always ends with a function or an error.", "quantifier": "all lists of loaded objects, both builds", "why_tests_cant": "Depends on which objects are loaded and what the loader's search order is.", "anchors": ["src/common.c:monitor_dlsym", "src/common.c:phdr_callback", "src/dlopen.c:monitor_dlopen_init"]}
{"id": "C54", "title": "Threads may share an attribute object for pthread_create", "statement": "When several threads call pthread_create with the same attribute object, each new thread gets the size the client chose for the object's size, and afterwards the object has its original size.", "quantifier": "any number of threads, every interleaving of attribute calls", "why_tests_cant": "Depends on the interleaving.", "anchors": ["src/pthread.c:monitor_adjust_stack_size", "src/pthread.c:pthread_create"]}
{"id": "C55", "title": "A thread stays inside a stack the application supplied", "statement": "If the application set the thread's stack memory with pthread_attr_setstack, the new thread's stack lies inside that memory.", "quantifier": "all stack sizes and client answers", "why_tests_cant": "All sizes and client functions.", "anchors": ["src/pthread.c:monitor_adjust_stack_size"]}
{"id": "C56", "title": "monitor-link builds the right command line", "statement": "monitor-link runs the compiler with the original arguments unchanged and in order, one wrap option per configured and requested symbol, one undefined option per requested symbol, then the inserted files, libmonitor, and a second copy of every -l library; other argument vectors are rejected before anything is run.", "quantifier": "all argument vectors", "why_tests_cant": "Unbounded argument vectors.", "anchors": ["src/monitor-link.in"]}
{"id": "C57", "title": "Concurrent sigaction calls take effect one at a time", "statement": "When several threads call sigaction, signal and monitor_sigaction at overlapping times, each call answers, and the application's and the kernel's actions end up, as if the calls had been made one after another; the kernel always has monitor's handler and flags.", "quantifier": "any number of threads, every interleaving of their memory accesses and system calls", "why_tests_cant": "Depends on the interleaving of unlocked reads and writes of a shared table.", "anchors": ["src/signal.c:monitor_appl_sigaction", "src/signal.c:monitor_sigaction", "src/signal.c:monitor_remove_client_signals"]}
{"id": "C58", "title": "main runs with the program's own arguments and the process ends with its own status", "statement": "The application's main is called once, at its own address, with the argument count, vector and environment the system started the program with; the process ends once, with the status main returned or the application passed to exit or _exit; the exit callbacks run once, fini_process with what the latest init_process returned, and monitor_real_exit runs none.", "quantifier": "all programs, client init_process functions, builds, and orders of entries into the library before and after main", "why_tests_cant": "All argument vectors, client functions and call orders.", "anchors": ["src/main.c:monitor_main", "src/main.c:__libc_start_main", "src/main.c:__wrap_main", "src/main.c:monitor_real_exit", "src/main.c:monitor_begin_process_fcn"]}
{"id": "C59", "title": "init_process receives the program's command line", "statement": "init_process is called with the program's argument count and vector, and from at_main on monitor_get_main_args answers the program's arguments (with the count as the client left it).", "quantifier": "all programs, clients, builds and call orders", "why_tests_cant": "Holds or fails depending on who enters the library first.", "anchors": ["src/main.c:monitor_begin_process_fcn", "src/main.c:monitor_get_main_args", "src/main.c:monitor_main"]}
{"id": "C60", "title": "The start callbacks come in order and main's address is known", "statement": "init_library runs once and before every init_process; start_main_init, at_main and main each happen once in this order, at_main after init_process; monitor_get_addr_main answers main's address from start_main_init on and NULL before it.", "quantifier": "all programs, clients, builds and call orders", "why_tests_cant": "All call orders.", "anchors": ["src/main.c:monitor_begin_library_fcn", "src/main.c:__libc_start_main", "src/main.c:__wrap_main", "src/main.c:monitor_get_addr_main"]}
{"id": "C61", "title": "The value init_process returns is the process's data", "statement": "The value returned by init_process is the data passed to fini_process, whichever thread begins process exit and by whatever route, and is what monitor_get_user_data returns in the main thread, until a forked child gets its own init_process; thread creation, thread ends and queries in between do not change it.", "quantifier": "every schedule of any number of threads, callbacks, queries, forks by the main thread and exits after the return of init_process", "why_tests_cant": "the data is one field of a shared node that process start, fork and thread-list code all write; a test fixes one order of events", "anchors": ["src/main.c:monitor_begin_process_fcn", "src/main.c:monitor_end_process_fcn", "src/pthread.c:monitor_get_user_data", "src/pthread.c:monitor_reset_thread_list"]}
{"id": "C62", "title": "The application sees the same signals as without the library", "statement": "A program that installs handlers and receives signals, also inside its handlers, sees the same handler runs with the same arguments, the same stops and the same death as it would without the library, when the client passes the signals on.", "quantifier": "all programs of calls and signal arrivals nested to any depth, all starting dispositions, both builds", "why_tests_cant": "Compares two systems on every program; a test shows one program.", "anchors": ["src/signal.c:monitor_signal_handler", "src/signal.c:monitor_appl_sigaction", "src/signal.c:monitor_signal_init"]}
{"id": "C63", "title": "A blocked system call ends as it would without the library", "statement": "A signal that arrives while the application is blocked in a system call interrupts the call, or lets it go on, as it would without the library; a signal the client keeps for itself does not break a restartable call.", "quantifier": "all histories of signal calls, all signals, both kinds of system call", "why_tests_cant": "All histories of actions and flags.", "anchors": ["src/signal.c:monitor_adjust_saflags", "src/signal.c:monitor_signal_handler", "src/signal.c:monitor_signal_init"]}
{"id": "C64", "title": "A program started by exec finds the dispositions it would find without the library", "statement": "After exec the new program starts with the same ignored signals and the same blocked signals as it would without the library.", "quantifier": "all histories of signal calls before exec, all chains of programs", "why_tests_cant": "All histories and chains.", "anchors": ["src/signal.c:monitor_signal_init", "src/signal.c:sigaction", "src/signal.c:sigprocmask"]}
{"id": "C65", "title": "The application's handler runs with the mask and stack it asked for", "statement": "While the application's handler runs, the blocked signals are those it would find without the library, except the signals the library keeps open and its own thread-stop signal, which is always blocked; the handler runs on the alternate stack if it asked for it.", "quantifier": "all histories of signal calls, all signals", "why_tests_cant": "All histories of masks and flags.", "anchors": ["src/signal.c:monitor_adjust_samask", "src/signal.c:monitor_adjust_saflags", "src/signal.c:monitor_remove_client_signals"]}
{"id": "C66", "title": "Concurrent publication of the MPI size and rank", "statement": "When several threads publish the size and rank (the client by monitor_set_size_rank, or the application by MPI_Comm_rank after MPI_Init), the queries answer -1 or a published value, from the first publication on they answer that publication's pair, and they do not change afterwards.", "quantifier": "any number of threads and every interleaving of their memory accesses", "why_tests_cant": "Depends on the interleaving of unlocked reads and writes.", "anchors": ["src/mpi.c:monitor_set_size_rank", "src/mpi.c:monitor_set_mpi_size_rank", "src/mpi.c:monitor_mpi_comm_size", "src/mpi.c:monitor_mpi_comm_rank"]}
{"id": "C67", "title": "sigtimedwait ends in time", "statement": "sigtimedwait never reports a timeout before the time given has passed, and ends at the latest when it has passed.", "quantifier": "all sequences of kernel answers and the time each took, all client handlers, all sets", "why_tests_cant": "Unbounded sequences of restarts with arbitrary times.", "anchors": ["src/pthread.c:sigtimedwait", "src/pthread.c:monitor_sigwait_helper"]}
{"id": "C68", "title": "monitor_real_execve called by several threads", "statement": "monitor_real_execve starts the new program with the caller's own environment without the library's LD_PRELOAD entry, never writes outside its memory, and two threads that call it at once do not affect each other.", "quantifier": "any number of threads and every interleaving of their memory accesses, all environments", "why_tests_cant": "The calls share one static array; the outcome depends on the interleaving.", "anchors": ["src/fork.c:monitor_copy_environ", "src/fork.c:newenv_array", "src/fork.c:monitor_real_execve"]}
{"id": "C69", "title": "A signal that arrives while its action is being changed", "statement": "A signal that arrives while threads call sigaction, signal or monitor_sigaction is handled by the client handler and the action in force when it arrived, or by one set since: the handler of that action, called in the way that action asked for; the process does not crash.", "quantifier": "any number of threads and deliveries, every interleaving of their memory accesses, all histories of calls", "why_tests_cant": "Depends on the moment at which the signal interrupts or overlaps the unlocked updates.", "anchors": ["src/signal.c:monitor_signal_handler", "src/signal.c:monitor_appl_sigaction", "src/signal.c:monitor_sigaction", "src/signal.c:signal"]}
{"id": "C70", "title": "monitor_real_abort ends the process", "statement": "monitor_real_abort ends the process by SIGABRT, whatever handlers are installed for it and whatever is blocked, and runs no handler and no exit callback, also while other threads make signal calls.", "quantifier": "all states of the application's and the library's signal actions and masks, all calls of other threads between its steps", "why_tests_cant": "All histories of actions and masks and all calls of other threads in between.", "anchors": ["src/signal.c:monitor_real_abort"]}
{"id": "C71", "title": "Data under the lock on processors that delay stores and load early", "statement": "Whatever the processor delays or does early, the threads that take the library's lock are inside one at a time, and whoever is inside reads what was stored last inside it.", "quantifier": "any number of threads, all programs that use the data only inside the lock, every order in which stores reach memory and loads are done early, the processors the library supports", "why_tests_cant": "Depends on the processor's memory order, which a test on one machine does not exercise.", "anchors": ["src/spinlock.h:spinlock_lock", "src/spinlock.h:spinlock_unlock", "src/spinlock.h:spinlock_trylock", "src/atomic.h:compare_and_swap"]}
{"id": "C72", "title": "What fini_thread stored is visible in fini_process", "statement": "When the exiting thread has seen that another thread's fini_thread is done, it reads in fini_process everything that thread stored.", "quantifier": "all threads, all programs in which the data is stored by one thread before its flag, every order in which stores reach memory and loads are done early", "why_tests_cant": "Depends on the processor's memory order.", "anchors": ["src/pthread.c:monitor_thread_shootdown", "src/pthread.c:monitor_shootdown_handler", "src/pthread.c:monitor_pthread_cleanup_routine"]}
{"id": "C73", "title": "Records of threads are used again", "statement": "The memory the library uses for threads is bounded by the threads alive at once: the record of a thread that has ended serves a later thread, and a new block of records is allocated only when every record of the blocks there are is in use by a live thread or by a pthread_create under way.", "quantifier": "all numbers of threads, all programs and interleavings, every way a thread can end", "why_tests_cant": "A leak shows only over arbitrarily many creations; a test sees a finite run and one schedule.", "anchors": ["src/pthread.c:monitor_make_thread_node", "src/pthread.c:monitor_unlink_thread_node", "src/pthread.c:monitor_pthread_cleanup_routine", "src/pthread.c:pthread_create"]}
{"id": "C74", "title": "Every call of a real function reaches that function", "statement": "Whenever libmonitor passes a call on to the system (exit, fork, exec, sigaction, pthread_create, dlopen, MPI_Init and all the others), the call reaches the system function of that name: the pointer is never NULL and never that of another function, whichever entry point is called first, by whichever thread, from a constructor, a callback, a signal handler, a new thread or a forked child. An override makes its call exactly once: it never runs to its end without having made it and never makes it twice.", "quantifier": "all orders of calls of all overrides and client functions, all interleavings of threads, all deliveries of signals, all forks", "why_tests_cant": "A wrong guard shows only when a first call meets another thread or a handler in a window of a few instructions, or comes from an unusual entry point.", "anchors": ["src/common.h:MONITOR_RUN_ONCE", "src/common.h:MONITOR_GET_REAL_NAME", "src/main.c:monitor_normal_init", "src/pthread.c:monitor_thread_name_init", "src/signal.c:monitor_signal_init", "src/fork.c:monitor_fork_init", "src/dlopen.c:monitor_dlopen_init"]}
{"id": "C75", "title": "A failing call says why the system refused it", "statement": "When an overridden call fails because the system's call failed, the application sees the system's reason: the same result, the same errno (or error number, for sigwait), and for dlopen and dlclose the same dlerror() message. A signal that the application ignores, and the signal that announces the end of the process, leave errno as it was.", "quantifier": "all results of the system's calls, everything that callbacks, output and library calls may leave in errno, all sequences of restarts of a wait", "why_tests_cant": "The reason is lost only when the system's call fails and the client's callback or a write to stderr happens to set errno after it; no test makes fork or exec fail in such a moment.", "anchors": ["src/fork.c:monitor_fork", "src/fork.c:monitor_execv", "src/fork.c:monitor_system", "src/fork.c:monitor_real_execve", "src/signal.c:monitor_appl_sigaction", "src/signal.c:monitor_signal_handler", "src/pthread.c:sigwaitinfo", "src/pthread.c:monitor_shootdown_handler", "src/dlopen.c:dlopen"]}
{"id": "C76", "title": "Blocked signals wait and arrive as without the library", "statement": "A signal that the application has blocked waits and is delivered when the application unblocks it, returns from the handler that kept it off, or starts with it pending: the same handlers run in the same order, the process stops and dies at the same points, and sigpending and the mask show the same, as without the library.", "quantifier": "all program starts, all sets of signals pending at exec, all sequences of calls, sent signals and handler returns, of any length and nesting", "why_tests_cant": "Which signals wait for which depends on the masks of all handlers on the stack and on the moment each signal is sent; a test covers single orders, and the harm shows only when several signals wait at once.", "anchors": ["src/signal.c:monitor_signal_handler", "src/signal.c:sigprocmask", "src/signal.c:monitor_appl_sigaction", "src/signal.c:monitor_adjust_samask", "src/signal.c:monitor_remove_client_signals"]}
{"id": "C77", "title": "init_thread_support comes once, before the first thread", "statement": "The library calls monitor_init_thread_support() at most once, and the call has returned before the first monitor_thread_pre_create(), before the first monitored thread is made and before the first monitor_init_thread(). monitor_is_threaded() is 1 only if the process has called pthread_create since it started or was forked, and 0 only if no thread has been made since.", "quantifier": "all programs, all interleavings of threads and signal handlers, all forks the main thread makes outside pthread_create, every history of queries", "why_tests_cant": "The flag is tested and set without a lock, on the claim that only one thread exists; a test meets the window between test and set in one schedule only.", "anchors": ["src/pthread.c:pthread_create", "src/pthread.c:monitor_is_threaded", "src/pthread.c:monitor_reset_thread_list", "src/monitor.h:monitor_init_thread_support"]}
{"id": "C78", "title": "A child of monitor_real_fork goes on as the same monitored process", "statement": "monitor_real_fork makes no callback, neither in the parent nor in the child, and changes nothing in the parent. In the child the calling thread is the main thread (number 0, one thread), monitor_get_user_data answers what it answered before, new threads get init_thread, and exit issues begin_process_exit and fini_process once, with the data of the process, and ends the process.", "quantifier": "all reachable states of the library, all calling threads, all values the client returns", "why_tests_cant": "The outcome depends on what every other thread was doing at the fork and on which thread makes the call.", "anchors": ["src/main.c:monitor_real_fork", "src/pthread.c:monitor_reset_thread_list", "src/main.c:monitor_end_process_fcn", "src/pthread.c:monitor_get_user_data"]}
{"id": "C79", "title": "Callbacks a client does not define do nothing", "statement": "A client that defines no callback gets a process without client data: every callback issued has NULL as its data and monitor_get_user_data returns NULL in every thread and child. Without pre_create no thread is ignored for a reason other than monitor_disable_new_threads or an unknown creator. Without init_thread a thread's data is what pre_create returned for it. Without init_process the data of the process is what pre_fork returned (NULL in the first process). Without reset_stacksize a thread is created with exactly the attributes the application gave.", "quantifier": "all executions of any number of threads, all children, all values the other callbacks return", "why_tests_cant": "The default must be right for every path the data takes through nodes, forks and threads, in every order of events.", "anchors": ["src/callback.c:monitor_init_process", "src/callback.c:monitor_init_thread", "src/callback.c:monitor_thread_pre_create", "src/callback.c:monitor_pre_fork", "src/callback.c:monitor_reset_stacksize", "src/pthread.c:adjust_stack_size"]}
{"id": "C80", "title": "Main may leave by pthread_exit", "statement": "If the main thread calls pthread_exit the process goes on with its other threads: they run on and can create new threads, which run their start routines. When the last thread of a process ends, begin_process_exit and fini_process have been issued and fini_process has returned.", "quantifier": "all schedules of any number of threads, all orders in which they end, all children", "why_tests_cant": "Which thread ends last, and what the others do after main has left, depends on the schedule.", "anchors": ["src/pthread.c:pthread_exit", "src/pthread.c:monitor_begin_thread", "src/pthread.c:monitor_link_thread_node", "src/main.c:monitor_end_process_fcn"]}
{"id": "C81", "title": "A failed exec leaves the process as it was", "statement": "When a function of the exec family returns, because the system refused the call, the program goes on as if it had not been made: nothing in the library has changed, threads created afterwards run their start routines, and the later exit of the process issues begin_process_exit and fini_process.", "quantifier": "all reachable states, all calling threads, all reasons for the refusal", "why_tests_cant": "The refusal can come at any moment of the life of the process and for reasons that the library's own test of the file does not see.", "anchors": ["src/fork.c:execve", "src/fork.c:execv", "src/fork.c:execvp", "src/main.c:monitor_end_process_fcn", "src/pthread.c:monitor_link_thread_node"]}
{"id": "C82", "title": "Process exit ends, whatever the other threads do", "statement": "When a thread calls exit or _exit, returns from main or gets a fatal signal, and the client's callbacks return, the library gets through the exit callbacks and the process ends, even if the other threads never run again, block the shootdown signal or never answer it.", "quantifier": "all reachable states, all threads that exit first, all ways to exit, any number of other threads in any state", "why_tests_cant": "The exit code waits for a lock and for the other threads; whether the wait ends depends on where every other thread stands.", "anchors": ["src/main.c:monitor_end_process_fcn", "src/pthread.c:monitor_thread_shootdown", "src/spinlock.h:spinlock_lock"]}
{"id": "C83", "title": "However the process ends, fini_process is issued first", "statement": "Whichever way the program ends - exit, _exit, return from main, a fatal signal, err or errx, quick_exit, an error of the library itself - the client gets begin_process_exit and fini_process before the process is gone, and fini_library in the dynamic case.", "quantifier": "all states of all executions, all threads, every way to end the process", "why_tests_cant": "Every way to end the process in every state, with other threads at any place.", "anchors": ["src/main.c:exit", "src/main.c:_exit", "src/main.c:monitor_library_fini_destructor", "src/main.c:monitor_end_library_fcn", "src/common.h:MONITOR_ERROR_ARGS", "src/pthread.c:monitor_make_thread_node", "src/pthread.c:monitor_thread_shootdown"]}
{"id": "C84", "title": "A thread cancelled inside system() leaves the process as it was", "statement": "system() is a cancellation point. A thread that is cancelled there leaves the process as if the call had not been made: the dispositions of SIGINT and SIGQUIT and the thread's own mask are restored and pre_fork is answered by post_fork.", "quantifier": "all dispositions and masks, any number of threads in system(), every order of their steps, a cancellation at any moment", "why_tests_cant": "The moment of the cancellation and the calls of the other threads are a matter of schedule.", "anchors": ["src/fork.c:monitor_system", "src/fork.c:system"]}
{"id": "C85", "title": "Every call of the library returns", "statement": "Every call an application or client makes into the library returns after a bounded number of steps of the caller, provided the callbacks it issues return: the bound depends only on the number of monitored threads. A caller that is not at one of the library's waits can always make its next step. Calls other than exit, pthread_exit and exec wait for nothing but the library's own lock and never end the process.", "quantifier": "all reachable states, all calls, all threads, any number of threads, every interleaving with the other threads", "why_tests_cant": "The number of steps depends on what the other threads do meanwhile, and a test that passes has seen only some interleavings.", "anchors": ["src/pthread.c:pthread_create", "src/pthread.c:monitor_broadcast_signal", "src/pthread.c:monitor_shootdown_threads", "src/main.c:monitor_begin_process_fcn", "src/main.c:monitor_end_process_fcn", "src/fork.c:monitor_fork"]}
{"id": "C86", "title": "The callbacks of a thread nest", "statement": "A client may keep a stack per thread: a callback that returns in a thread is always the newest one issued in that thread that has not returned, whatever calls, signals, handlers and shootdowns happened inside it. A callback that its thread left by pthread_exit or cancellation never returns. A thread that does not leave that way has returned from every callback issued in it when it ends or is back in application code.", "quantifier": "all schedules, all threads, all callbacks, any depth of nesting, children of forks included", "why_tests_cant": "Callbacks nest in ways that depend on where signals arrive and what clients call inside callbacks; there is no bound on the depth.", "anchors": ["src/main.c:monitor_begin_process_fcn", "src/main.c:monitor_end_process_fcn", "src/pthread.c:pthread_create", "src/pthread.c:monitor_begin_thread", "src/pthread.c:monitor_pthread_cleanup_routine", "src/pthread.c:monitor_shootdown_handler", "src/fork.c:monitor_fork"]}
{"id": "C87", "title": "A created thread runs its start routine and ends after it", "statement": "A thread created by pthread_create enters the start routine it was created for, with its argument, after a bounded number of its own steps; when the routine returns, the thread ends after a bounded number of its own steps, also while the process exits. The library adds no other wait than its lock.", "quantifier": "all reachable states, every place of the thread in the library's code before and after its routine, every value init_thread returns, any number of other threads", "why_tests_cant": "Where the thread stands and what the other threads hold at that moment is a matter of schedule.", "anchors": ["src/pthread.c:monitor_begin_thread", "src/pthread.c:monitor_link_thread_node", "src/pthread.c:monitor_pthread_cleanup_routine", "src/pthread.c:monitor_unlink_thread_node"]}
{"id": "C88", "title": "A thread ends with the application's value", "statement": "pthread_create returns what the system returned and names the same thread; the new thread starts with the routine and argument given; its cleanup handlers run in the usual order; pthread_join gives what the start routine returned or what was given to pthread_exit, or PTHREAD_CANCELED if the thread was cancelled. Everything the application could see without the library it can still see, and nothing else. fini_thread is the last thing in the thread.", "quantifier": "all executions of any number of threads that create, return, exit, push and pop cleanup handlers, cancel and join each other, all answers of the system, all moments at which cancellations take effect, all histories of reused thread records", "why_tests_cant": "Values pass through records that are used again and through unwinding at any moment; a test tries few schedules and few moments of cancellation.", "anchors": ["src/pthread.c:pthread_create", "src/pthread.c:monitor_begin_thread", "src/pthread.c:monitor_pthread_cleanup_routine", "src/pthread.c:pthread_exit", "src/pthread.c:monitor_make_thread_node", "src/pthread.c:monitor_unlink_thread_node"]}
{"id": "C89", "title": "Signal actions in the child of a fork", "statement": "In the child of a fork monitor's handler and the required flags are in force for every managed signal at every moment, whatever the parent's threads were doing. If no thread of the parent was inside sigaction for a signal at the fork, the child's calls for it answer, and its action is, as after the parent's calls followed by the child's made one at a time. In any case the action and the answers in the child are those of the last call made in the child, and before the first one what the child was born with, so one call puts right what the fork tore, and after it the kernel has the flags of the child's last request and blocks the shootdown signal; nothing is reported that nobody asked for a part of.", "quantifier": "all histories of the parent's threads, all states in which another thread is at any step of sigaction, signal or monitor_sigaction when one forks, all interleavings of the child's threads", "why_tests_cant": "The fork has to hit another thread between two stores of a struct; a test cannot place it there, nor try every such point.", "anchors": ["src/fork.c:monitor_fork", "src/main.c:monitor_begin_process_fcn", "src/signal.c:monitor_appl_sigaction", "src/signal.c:monitor_sigaction"]}
