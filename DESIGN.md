# A formal model of libmonitor in Rocq

libmonitor interposes on process and thread creation and exit, signals, exec,
system, dlopen and MPI, and calls a client's callbacks.  The code is read from
/repo; nothing there is built or run.  The model is in `rocq/theories`, uses only
Coq 8.16's standard library, and adds no axioms.

## Layout

Each part has a `*Model.v` (the code, with file:line citations), a `*Spec.v`
(what the property says, without the model's helpers), proof files, and a
`*Props.v` (the theorems named in MANIFEST.json, their non-vacuity examples, the
refutations, and `Print Assumptions`).  `seeded/LOG.jsonl` records the wrong
programs that the theorems were tested against.

| Model | Code |
|---|---|
| SignalModel.v | signal.c (all but the `#if 0` part), pthread_sigmask in pthread.c |
| SigRaceModel.v | signal.c 369-431, 746-773, 809-886 with every memory access a step, any number of threads |
| StartModel.v | main.c 135-149, 190-285, 301-344, 357-368, 423-438, 485-488, 504-656 with the values passed (arguments, addresses, status), one thread, all builds |
| SigwaitModel.v | pthread.c 1237-1381 (sigwait, sigwaitinfo, sigtimedwait), signal.c 169-190 |
| ExecModel.v | fork.c: environment copy, argument lists, executable test, exec overrides, monitor_real_* |
| SystemModel.v | fork.c: system(), fork(), vfork(); the child's part of main.c |
| SigOsModel.v | Linux's delivery, restart, exec and handler-mask rules (signal(7), sigaction(2), execve(2)) beside signal.c 64-65, 196-276, 282-357, 720-738, 809-908 |
| MpiRaceModel.v | mpi.c 46-131, one step per access to a shared variable |
| SigtimeModel.v | pthread.c 1352-1381, the time of the restart loop |
| EnvRaceModel.v | fork.c 110, 153-199, 633-646, one step per store to the shared array, any number of threads |
| DelivModel.v | signal.c 196-276 with every read of the table a step, beside SigRaceModel.v |
| AbortModel.v | signal.c monitor_real_abort beside other threads' calls |
| WeakModel.v | spinlock.h, atomic.h and the flag tn_fini_done with delayed stores and early loads |
| LifeWasteSpec.v, LifeWaste.v, LifeWasteProps.v | records of threads: in use, free, lost (C73) |
| OnceModel.v, OnceSpec.v, OnceProofs.v, OnceReturn.v, OnceProps.v | pointers to real functions, run-once initialisation, in every interleaving (C74) |
| ErrnoModel.v, ErrnoSpec.v, ErrnoProps.v | errno and dlerror() across the overrides and handlers (C75) |
| PendModel.v, PendSpec.v, PendProofs.v, PendProps.v | pending and blocked signals, nested handlers (C76) |
| LifeSupSpec.v, LifeSup.v, LifeSupOnce.v, LifeSupProps.v | init_thread_support and monitor_is_threaded (C77) |
| LifeRealForkSpec.v, LifeRealFork.v, LifeRealForkProps.v | monitor_real_fork on the Life machine (C78) |
| LifeDefaultSpec.v, LifeDefault.v, LifeDefaultProps.v | callback.c's weak defaults on the Life machine (C79) |
| LifeLastSpec.v, LifeLast.v, LifeLastProps.v | main's pthread_exit and the last thread on the Life machine (C80) |
| LifeExecSpec.v, LifeExecProps.v | exec that fails on the Life machine (C81) |
| LifeStopSpec.v, LifeStop.v, LifeStopProps.v | the exiting thread runs alone on the Life machine (C82) |
| LifeErrModel.v | ends of the process inside the C library: common.h 108-113 (MONITOR_ERROR), err, quick_exit |
| SysNestModel.v | fork.c 521-603: several threads in system(), with cancellation |
| LifeBound*.v | no code of its own: bounds for the Life machine |
| LifeNest*.v | no code of its own: nesting of callbacks in the Life machine |
| LifeBorn*.v | no code of its own: start and end of a thread in the Life machine |
| JoinModel.v | pthread.c: pthread_create, pthread_exit, monitor_begin_thread, the cleanup routine and the thread records, with the values threads end with, cleanup handlers, cancellation and pthread_join |
| SigForkModel.v | fork.c: monitor_fork, the copy of the signal table and of the kernel's actions in the child |
| MpiModel.v | mpi.c, the sixteen mpi_*.c entry points, pmpi.c |
| StringsModel.v | utils.c |
| LoaderModel.v | common.c, dlopen.c, the lookups in the init functions |
| LockModel.v | spinlock.h, the ll/sc compare_and_swap of atomic.h |
| QueueModel.v | the LIST macros of queue.h that the code uses, pointer level |
| LifeModel.v | main.c, pthread.c (nodes, create, exit, shootdown, broadcast, queries), the fork/exec overrides, the fatal branch of the signal handler, as one concurrent machine |
| ShootModel.v | the clock of the shootdown loop, pthread.c 549-632 |
| AttrModel.v | stack-size adjustment, pthread.c 1012-1053, 1139-1160 |
| FenceModel.v | the address tests of main.c and pthread.c |
| ScriptModel.v | monitor-run.in, monitor-link.in |

## How the code is modelled

* Sequential code becomes total Gallina functions on explicit state records.
  Calls to the client, the application or the kernel become events in a trace;
  their results come from oracles that the theorems quantify over.
* Signal sets are binary numbers (signal n is bit n-1); `sa_flags` are binary
  numbers with the Linux values.
* Writing outside an array, reading past a variadic list, or following a NULL
  pointer is a separate outcome of the function, so memory safety is a theorem.
* Concurrent code (main.c, pthread.c and the fork path) is a small-step machine:
  any number of threads, each with a stack of frames; every shared access that
  can race is its own step; critical sections are lock / body / unlock.
  Application and client code are "most general" frames that may call any
  entry point at any time; a signal may push a handler frame at any step.
  Theorems quantify over all schedules by induction on the step relation.
* A theorem about the machine names the schedules it covers by a filter
  (`reach dyn ok s`: s is reached by steps that satisfy `ok`).  `any` is every
  schedule.  The other filters are defined in the `Life*Spec.v` files, each with
  the reason in words, and each has a refutation showing what goes wrong without
  it:
  `settled_forks`, `app_forks`, `clean_forks` (which forks are followed into the
  child), `early_forks` (no fork after exit began), `no_late` (no library call
  from destructors of a finished thread), `orderly` (the last three together),
  `marks_at_once`, `set_at_once`, `call_at_once`, `steady` (a signal does not hit
  a given two-instruction window), `library_ends`, `quiet_end`, `calm`,
  `free_forks`, `shielded`, `tidy`.

## Plan per property

* **C01** sigaction/signal are transparent to the application - SignalModel.v (signal.c 196-357, 369-542, 720-908 as state transformers over a signal table and a kernel table); refinement to an abstract per-signal register (SignalSpec.v), induction over call histories.
* **C02** Monitor keeps control of every managed signal - Invariant over all histories of sigaction/signal/monitor_sigaction: kernel entry of every managed signal = monitor handler with exact flags and mask; bitwise lemmas on N.
* **C03** Signal dispatch: client first, then the application's disposition - monitor_signal_handler as a function producing an event trace; compared with a declarative dispatch specification for every reachable table.
* **C04** Fatal signals deliver the exit callbacks before the process dies - Same function, trace shape for the default-terminate class; both build modes by a boolean parameter.
* **C05** The application cannot change the blocked state of kept-open signals - remove_client_signals + sigprocmask as bit-set functions; bit-by-bit theorem, then induction over histories.
* **C06** Handler masks do not block client signals - Invariant on installed masks; the unrestricted statement is expected to be false (client registers after the application), so a refutation and a partial theorem.
* **C07** The shootdown signal is chosen by a fixed priority and never changes - choose_shootdown_early on arbitrary environment strings (sscanf %d model), configure value, client list; closed-form specification of the choice; list bound.
* **C08** The chosen shootdown signal is one the kernel accepts - Expected false: the validity flags are not computed before the choice. Refutation with an environment value, partial theorem for the case that the choice is kernel-accepted.
* **C09** sigwait family returns only signals meant for the application - sigwait_helper as a function of the unbounded list of kernel results; induction on the list.
* **C10** Client registration is invisible to the application and rejects bad signals - Frame theorem on monitor_sigaction.
* **C11** Unmonitored children get the environment without LD_PRELOAD - copy_environ on a list of strings with an explicit array with bounds (out-of-bounds = error outcome); the substring match makes the 'keeps every other variable' half false in general: refutation + partial.
* **C12** execl-style argument lists are passed on unchanged - copy_va_args with an explicit va_list cursor, doubling array and out-of-range outcome; empty list is a refutation.
* **C13** execvp success prediction follows the PATH search - is_executable over arbitrary PATH strings, with UB outcomes (NULL PATH, buffer overflow); spec = POSIX PATH search; partial + refutations.
* **C14** exec runs the exit callbacks iff success is predicted, and always execs - exec wrappers with access/exec oracles producing traces.
* **C15** system() has POSIX effects and paired callbacks - monitor_system over a small kernel (dispositions, mask, fork oracle, wait result list); theorem on every path.
* **C16** fork delivers pre_fork / post_fork / init_process with the same data - monitor_fork trace in parent and child.
* **C17** MPI init callbacks once per application call - Call trees of MPI entry points with the init counter; induction on trees.
* **C18** MPI finalize callbacks once per application call - As C17 with the fini counter.
* **C19** MPI size and rank are set once and never change - As C17 with size/rank registers; first-publication-wins by induction on histories.
* **C20** Signal-set printing never overruns its buffer - Byte-level model of sigset_string / signal_list_string with explicit buffer and overrun outcome; loop invariants for every size. Size 0 is a refutation.
* **C21** Signal-set printing is exact when it fits - Decoder specification; round trip for every set and list.
* **C22** Real-function lookup never resolves to monitor itself or an earlier object - List of loaded objects with symbol tables; specification by 'first after libmonitor'.
* **C23** dlopen/dlclose wrappers are transparent and ordered - Wrapper traces with oracle results.
* **C24** The spinlock gives mutual exclusion - Small-step machine for N threads, one memory access per step; invariant.
* **C25** compare_and_swap from load-linked/store-conditional is atomic - Small-step LL/SC machine with reservations and spurious failure; linearisation-point argument by refinement.
* **C26** Linked-list operations implement a sequence - Pointer-level heap (le_next, le_prev as address-of-pointer cells); representation predicate; refinement to list operations.
* **C27** init_process runs at most once per process and before everything thread-related - LifeModel.v, LifeOnce.v: the once flags as tokens (a counting invariant: frames that hold the token plus events issued <= 1).
* **C28** fini_process runs at most once per process - LifeModel.v, LifeOnce.v: same token argument for the exit cookie, per process image.
* **C29** Threads racing to exit wait for fini_process - LifeExit.v, LifeExitProps.v: invariant 'past end_process implies fini_process returned or the winner re-entered'. False when the winner re-enters exit with others waiting; refutations.
* **C30** Re-entrant exit never deadlocks - LifeReenter.v: the winner's node carries the mark; a re-entering thread always has an enabled step. Refutations for an ignored thread and for a signal before the mark.
* **C31** fini_library runs at most once per process and after fini_process - LifeLib.v: check-then-act on fini_library_done; refutations, and a theorem under 'ends apart' (no two threads inside the function).
* **C32** A forked child has its own exit callbacks - LifeFork.v: symbolic execution of the child from an arbitrary reachable parent state (solo runs lifted to the machine), plus the history invariant that exit events of a child are its own.
* **C33** Thread numbers are unique, dense and start at 1 - LifeReg.v, LifeNode.v: invariant on the counter, the nodes and the registration events.
* **C34** init_thread precedes the start routine and hands over the data - LifeThread.v, LifeCreate.v, LifeData.v: invariants on begin_thread frames and on which node is whose; order of events.
* **C35** fini_thread runs at most once per thread, after init_thread, with its data - LifeFini*.v, LifeOwnFini.v: false in the window between test and set of the fini flag; refutation, and a theorem when the window is not interrupted.
* **C36** No application thread starts after exit has begun - LifeFreeze.v: invariant on in_exit_cleanup and the events of threads that have not passed the check.
* **C37** Exit waits for every started thread's fini_thread - LifeScan.v, LifeWait*.v, LifeDone.v: invariant relating the scan loop's counters to the events of the threads on the list.
* **C38** The shootdown timeout is only for lack of progress - Shootdown timeout loop as a function of the scan/clock sequence; theorem over all sequences.
* **C39** No fini_thread after fini_process has begun - LifeClose.v: check-then-act on fini_thread_done; refutations, and a theorem for quiet ends.
* **C40** The thread list stays well formed and nodes are never shared - LifeNode.v, LifeList.v, LifeOwn.v, LifeBelong.v: ownership invariant on lists, free list, array and frames; QueueModel.v for the pointers.
* **C41** Per-thread queries answer for the calling thread - LifeMine.v: invariant on thread-specific data and ownership of nodes; LifeBottom.v: the main thread's stack bottom; LifeChildAsk.v: the answers in the child of a fork.
* **C42** Ignored threads get no thread callbacks - LifeThread.v: an ignored thread has no node and no registration frames. LifeIgnore*.v: invariant tying the flag in a thread's node to the last disable/enable call in the history, and the frames of a disabled pthread_create call; converse in the same invariant.
* **C43** Stack-size adjustment leaves the caller's attributes unchanged - adjust_stack_size and the attribute part of pthread_create as a function of pthread attribute oracles.
* **C44** post_create gets the data pre_create returned - LifePost.v: the field is re-read after the create; refutations, and a theorem while init_thread has not returned.
* **C45** New-thread info is available only inside pthread_create - LifeInfo*.v: invariant on the pointer in the caller's node and the open call; refutations on the ignore paths and nested calls.
* **C46** broadcast_signal reaches every other live thread once and never blocks - LifeBcast.v: a call run alone; LifeBcastAll.v: invariant on the walk of the list under every interleaving (who has been sent the signal so far, who is still to be visited); refutation once main is linked.
* **C47** Monitor's locks cannot be held across a signal that needs them - LifeLock.v, LifeStuck.v: blocked states that stay blocked (induction over all continuations); theorem when signals and forks keep out of locked regions.
* **C48** Every registered thread is alive - LifeAlive.v, LifeShoot.v: ownership of listed nodes by live threads; five refutations.
* **C49** block_shootdown defers the fini_thread callback - LifeBlock.v: the block flag of the thread's own node; refutations for an interrupted and a nested call.
* **C50** Start-function address tests are nested intervals - Interval arithmetic over arbitrary addresses (Z).
* **C51** monitor-run preloads the inserted files before libmonitor and keeps the old preload - monitor-run argument loop as a function on argument lists.
* **C52** Overlapping system() calls leave the signal dispositions as they were - SystemModel.v: two interleaved system() calls; the single call restores (C15); overlap refuted.
* **C53** Finding a real function is invisible to the client and ends - LoaderModel.v: call graph of the lookup with a fuel-free recursion relation; refutations in the preload build.
* **C54** Threads may share an attribute object for pthread_create - AttrModel.v: two interleaved pthread_create on one attribute object; overlap refuted.
* **C55** A thread stays inside a stack the application supplied - AttrModel.v with the stack address; refutation when the client enlarges the stack.
* **C56** monitor-link builds the right command line - ScriptModel.v: monitor-link's loop and word splitting; theorem for names without blanks.
* **C57** Concurrent sigaction calls take effect one at a time - Small-step machine over the table of SignalModel.v: each read and write of a field of an entry and each system call is one step; any number of threads. Invariants over all schedules (monitor's handler and flags, the shootdown signal at rest, nothing invented), and for a signal whose calls do not overlap, agreement with the sequential specification. Overlapping calls are refuted by schedules.
* **C58** main runs with the program's own arguments and the process ends with its own status - Sequential model of program start and end with the values that pass through, for an arbitrary client init_process and arbitrary library entries before and after main; every run has one shape (segments of init callbacks between the fixed calls), proved by induction over the entries, from which the statements follow.
* **C59** init_process receives the program's command line - Same model and shape. False when something enters the library before main (a constructor that makes a thread): refuted by such a program.
* **C60** The start callbacks come in order and main's address is known - Same model and shape; every call is recorded with main's address as the query would answer it.
* **C61** The value init_process returns is the process's data - LifeProc*.v: invariant relating main's node to the last return of init_process in the history: the value is stored, or the thread is still about to store it; at most one thread is inside the start of the process.
* **C62** The application sees the same signals as without the library - SigOs*.v: Linux's own delivery semantics is a second machine; a simulation relates monitor's table over the kernel's state to the native kernel's actions, and lockstep induction over the nested program gives equal traces.
* **C63** A blocked system call ends as it would without the library - Same two machines; outcome of a blocked call computed from the disposition and SA_RESTART; exact condition for agreement, and refutations where it fails.
* **C64** A program started by exec finds the dispositions it would find without the library - Same two machines followed by execve's reset; exact condition for agreement; induction over a chain of programs.
* **C65** The application's handler runs with the mask and stack it asked for - Same two machines; the mask the kernel sets while a handler runs, bit by bit.
* **C66** Concurrent publication of the MPI size and rank - MpiRace*.v: small-step machine, one step per access to a shared variable; invariants over all schedules; the history specification (first publication, no overlap) is separate.
* **C67** sigtimedwait ends in time - Sigtime*.v: the restart loop of SigwaitModel with the time of each kernel call; induction over the turns; the full claim is refuted.
* **C68** monitor_real_execve called by several threads - EnvRace*.v: threads copying into the one static array, one step per store; invariants over every schedule; the claim about two small environments at once is refuted.
* **C69** A signal that arrives while its action is being changed - Deliv*.v: the handler's reads of the table as steps beside the machine of SigRaceModel.v; the history invariant compares each delivery with the actions in force at its arrival and set since; crashes and mixed calls are refuted by schedules.
* **C70** monitor_real_abort ends the process - Abort*.v: the three steps of monitor_real_abort with histories of other threads' calls between them, delivery as in SigOsModel.v; calls about other signals keep the action of SIGABRT; the two ways it fails are refuted by witnesses.
* **C71** Data under the lock on processors that delay stores and load early - Weak*.v: a machine with one store buffer per thread, emptied in order (x86) or in any order not passing a barrier, and loads that may be done early until isync throws them away; the invariant says who owns the lock (also while the releasing store is under way) and what is still in its buffer, and that what the one inside has loaded early is still right. The claim is refuted for the GNU builtin on a processor with unordered stores.
* **C72** What fini_thread stored is visible in fini_process - Weak*.v, second part: the thread stores data, then the flag; the invariant relates its store buffer, the memory and the history.
* **C73** Records of threads are used again - LifeWaste*.v: invariant on the machine of LifeModel that every record handed out is on the free list or held by a frame; from it, all records are in use at the step that allocates a block, and a counting bound. A lost record is shown to stay lost. Refuted for a failed pthread_create, a thread that ends while shootdown is blocked, and pthread_exit inside init_thread.
* **C74** Every call of a real function reaches that function - Once*.v: every function that looks up or calls a real function is a list of instructions (look-up, call, test and set of a run-once flag, call of a function, client code, spawn, fork); a machine interleaves threads with stacks, signal handlers and forks. A check of the code by computation, proved sound by an invariant on stacks and flags. Two counting invariants give one call per entry. Refuted, with a NULL call, for a signal that arrives inside a run-once initialisation and for threads not made by pthread_create.
* **C75** A failing call says why the system refused it - Errno*.v: each override as the sequence of real calls and outside code (callback, output, library, application handler), where each piece of outside code leaves arbitrary values in errno and the dlerror() message. Direct proofs for all such environments, induction on the restarts of the waits.
* **C76** Blocked signals wait and arrive as without the library - Pend*.v: a kernel with pending signals, masks and a stack of handlers, once under the kernel alone and once under signal.c. Simulation between the two runs: same pending set, masks that agree on the application's signals, same stack; induction on the script and on the number of signals that wait.
* **C77** init_thread_support comes once, before the first thread - LifeSup*.v: on the machine of LifeModel, invariants on the three phases (flag clear, callback under way, callback returned): while the flag is clear only the main thread can reach the test, since every other thread has no record. monitor_is_threaded by an invariant that ties the flag it reads to the calls of pthread_create in the current process image.
* **C78** A child of monitor_real_fork goes on as the same monitored process - LifeRealFork*.v on the Life machine: the call and its three outcomes (parent, failure, child) from every reachable state; the child's run by one thread is computed symbolically, its exit and its pthread_create with the lemmas of C32; two invariants say which flags were set by what was seen. Refutations by schedules.
* **C79** Callbacks a client does not define do nothing - LifeDefault*.v: the Life machine restricted to schedules where an undefined callback returns its default; an invariant over all nodes, frames and events says that all data is null, another where the argument of init_process comes from; the other parts follow from C41, C42, C61 and C43.
* **C80** Main may leave by pthread_exit - LifeLast*.v on the Life machine: an invariant over the main thread's stack (main's own frames are below, or the exit callbacks are over), with the covering invariant of C29 for pthread_exit. Refutations by schedules.
* **C81** A failed exec leaves the process as it was - LifeExec*.v on the Life machine: the two steps of an exec whose failure is predicted, from every state; refutations by schedules for the other kind.
* **C82** Process exit ends, whatever the other threads do - LifeStop*.v on the Life machine: the exiting thread runs alone; the two passes over the list of threads by induction on the list with exact counts of the threads begun, not begun and not done, then the rest of each way to exit. Refutations: a loop invariant for the endless wait. LifeFree*.v: the lock holder's region ends, with the exit flags and the exiting thread unchanged (stronger form of the release lemma of C47). LifeJam*.v: an invariant of the exiting thread's steps shows that every other state never ends, so the conditions are exact.
* **C83** However the process ends, fini_process is issued first - LifeErr*.v: the life-cycle machine with ends of the process inside the C library (err, errx, error, MONITOR_ERROR; quick_exit), which do not pass through the replaced functions. For every reachable state the exact callbacks of such an end are proved, by running the thread alone; for the replaced functions C82 is used. Refuted by schedules.
* **C84** A thread cancelled inside system() leaves the process as it was - SysNest*.v: the several-threads machine of C52 with cancellation requests, acted upon in waitpid only. Without a cancellation in waitpid: a stack of the values kept by the nested calls, as an invariant. With one: all kept values are 'ignore' from then on, so it stays for good.
* **C85** Every call of the library returns - LifeBound*.v: a cost for every place in the code, which every step of the thread itself lowers and no step of another thread raises; a case analysis for progress; an invariant that keeps ordinary calls out of the exit code.
* **C86** The callbacks of a thread nest - LifeNest*.v: the calls without a return in the history of a thread are the callback frames on its stack, in order, followed by those it abandoned; an invariant of every step of every thread.
* **C87** A created thread runs its start routine and ends after it - LifeBorn*.v: a chain of lemmas, one per place in the code, from the end backwards; the identity of routine and argument from C34.
* **C88** A thread ends with the application's value - JoinModel.v: a machine with the values, cleanup handlers and cancellation; JoinSpec.v: the same threads without the library. Forward simulation (JoinProofs.v) and its converse (JoinFull.v); causes of values by invariants on the log (JoinValue.v).
* **C89** Signal actions in the child of a fork - SigForkModel.v: the child starts from the parent's table and kernel actions in any reachable state of the machine of C57, with all threads idle. SigForkProofs.v: a child's run is matched step by step by one in which the parent's other threads stand still; a separate invariant over the child's own history gives the action since the fork.

## Properties that the code does not have

Where reading the code shows that a property is false, it stays in
properties.jsonl as the user would expect it.  A theorem `*_refuted` gives a
concrete execution of the model that violates it, and a theorem `*_partial`
proves the strongest form that does hold, with the missing part named.

## Results

| Property | Status | Theorems |
|---|---|---|
| C01 | proved | C01_sigaction_transparent, C01_signal_transparent, C01_lazy_init |
| C02 | proved | C02_kernel_control |
| C03 | proved | C03_dispatch, C03_unmanaged_nothing |
| C04 | proved | C04_terminate, C04_order |
| C05 | proved | C05_mask_call, C05_mask_history |
| C06 | partial | C06_mask_at_call, C06_open_not_blocked_partial, C06_late_client_refuted |
| C07 | proved | C07_choice, C07_range, C07_list_fits, C07_env_number |
| C08 | partial | C08_usable_partial, C08_env_refuted |
| C09 | proved | C09_sigwait, C09_sigwaitinfo, C09_only_application_signals, C09_client_once, C09_fini_once, C09_live, C09_live_last |
| C10 | proved | C10_client_result, C10_client_invisible |
| C11 | partial | C11_safe_no_preload, C11_real_execve, C11_keeps_others_partial, C11_exactly, C11_other_variable_dropped_refuted |
| C12 | partial | C12_arguments_partial, C12_null_first_refuted |
| C13 | partial | C13_prediction_partial, C13_slash, C13_null, C13_empty_element_refuted, C13_empty_name_refuted, C13_unset_path_refuted, C13_long_path_refuted |
| C14 | partial | C14_execv, C14_execve, C14_execvp_partial, C14_callbacks_then_failure |
| C15 | proved | C15_application, C15_client, C15_child_application, C15_child_client, C15_null_command, C15_no_override |
| C16 | proved | C16_parent, C16_child |
| C17 | proved | C17_application_call, C17_whole_trace |
| C18 | proved | C18_application_call, C18_whole_trace |
| C19 | proved | C19_queries, C19_never_changes |
| C20 | partial | C20_sigset_safe_partial, C20_list_safe_partial, C20_size_zero_refuted, C20_big_list_refuted |
| C21 | proved | C21_sigset_exact, C21_list_exact, C21_members, C21_runs_cover, C21_null |
| C22 | partial | C22_found, C22_error, C22_never_self_partial, C22_own_wrapper_refuted |
| C23 | proved | C23_transparent |
| C24 | proved | C24_mutual_exclusion, C24_trylock, C24_free_lock |
| C25 | proved | C25_linearisable, C25_alone, C25_resumed |
| C26 | proved | C26_history, C26_remove_stale_refuted |
| C27 | partial | C27_init_process_once_partial, C27_init_library_once_and_first, C27_forked_child_gets_init_process, C27_init_process_once_refuted |
| C28 | proved | C28_exit_callbacks_once_in_order, C28_begin_returns_after_call |
| C29 | partial | C29_exit_waits_partial, C29_no_reentry_partial, C29_reentry_releases_refuted, C29_late_call_refuted |
| C30 | partial | C30_reenter_partial, C30_ignored_thread_refuted, C30_signal_refuted |
| C31 | partial | C31_after_fini_process_partial, C31_once_partial, C31_before_fini_process_refuted, C31_reentry_refuted, C31_race_refuted, C31_exec_before_main_refuted |
| C32 | partial | C32_child_partial, C32_create_partial, C32_exit_partial, C32_late_fork_refuted, C32_hang_refuted |
| C33 | partial | C33_dense, C33_unique, C33_stable_partial, C33_child_starts_at_one_refuted |
| C34 | partial | C34_once, C34_handover_partial, C34_fork_in_init_thread_refuted |
| C35 | partial | C35_order_data_partial, C35_once_partial, C35_once_refuted, C35_after_init_refuted |
| C36 | partial | C36_no_late_start, C36_no_late_fini_partial, C36_list_partial |
| C37 | partial | C37_waits_partial, C37_own_partial, C37_own_completed_refuted |
| C38 | proved | C38_gives_up_only, C38_ten_seconds, C38_waits_for_running_callbacks, C38_done_and_signals |
| C39 | partial | C39_none_after_partial, C39_timeout_refuted, C39_late_starter_refuted, C39_late_thread_refuted |
| C40 | partial | C40_lists_partial, C40_listed_partial, C40_fork_in_thread_refuted |
| C41 | partial | C41_queries_partial, C41_main_start_partial, C41_main_bottom_partial, C41_child_partial, C61_process_data_partial, C41_after_fini_refuted, C41_early_bottom_refuted |
| C42 | partial | C42_ignore_value, C42_no_callbacks_partial, C42_disabled_partial, C42_only_partial, C42_fork_in_pre_create_refuted, C42_disabled_fork_refuted |
| C43 | proved | C43_given, C43_null |
| C44 | partial | C44_once, C44_after, C44_issued, C44_data_partial, C44_overwritten_refuted, C44_freed_refuted |
| C45 | partial | C45_real, C45_only_inside_partial, C45_inside_partial, C45_outside_partial, C45_dangling_refuted, C45_nested_refuted |
| C46 | partial | C46_never_waits, C46_concurrent_partial, C46_partial, C46_target_partial, C46_twice_refuted |
| C47 | partial | C47_wait_partial, C47_own_lock, C47_fatal_refuted, C47_fork_refuted |
| C48 | partial | C48_shoot_partial, C48_kill_partial, C48_blocked_refuted, C48_main_refuted, C48_main_shoot_refuted, C48_late_refuted, C48_abandoned_refuted |
| C49 | partial | C49_deferred_partial, C49_value_partial, C49_interrupted_refuted, C49_nested_refuted |
| C50 | proved | C50_tests, C50_disjoint, C50_weak |
| C51 | partial | C51_runs_iff, C51_preload_partial, C51_entries, C51_space_refuted |
| C52 | partial | C52_nested_partial, C52_alone_partial, C52_overlap_refuted |
| C53 | partial | C53_static_partial, C53_same_result, C53_preload_callbacks, C53_closes_what_it_opens, C53_callbacks_refuted, C53_dlopen_lookup_recurses_refuted |
| C54 | partial | C54_alone_partial, C54_overlap_refuted |
| C55 | partial | C55_inside_partial, C55_below_buffer_refuted |
| C56 | partial | C56_link_iff, C56_link_plain_names_partial, C56_words, C56_libraries, C56_space_refuted |
| C57 | partial | C57_control, C57_shootdown_blocked, C57_nothing_invented, C57_handler_not_invented, C57_answers_partial, C57_in_force_partial, C57_installed_partial, C57_lost_refuted, C57_torn_refuted, C57_bare_mask_refuted, C57_open_blocked_refuted |
| C58 | proved | C58_main, C58_status, C58_exit_callbacks, C58_start_info, C58_wrap_partial, C58_wrap_refuted |
| C59 | partial | C59_command_line_partial, C59_early_refuted, C59_main_args |
| C60 | proved | C60_landmarks, C60_library_once, C60_process_before_main, C60_addr_main, C60_library_first_refuted |
| C61 | partial | C61_process_data_partial, C61_handler_refuted |
| C62 | partial | C62_same_signals_partial, C62_one_shot_refuted, C62_sent_segv_refuted, C62_ignored_fault_refuted |
| C63 | partial | C63_blocked_call_partial, C63_client_signal, C63_alarm_refuted, C63_sigchld_refuted, C63_client_signal_refuted |
| C64 | partial | C64_exec_partial, C64_exec_mask_partial, C64_chain_partial, C64_nohup_refuted |
| C65 | partial | C65_handler_mask_partial, C65_shootdown_blocked, C65_alternate_stack_refuted, C65_exclusion_refuted |
| C66 | partial | C66_nothing_invented, C66_first_wins_partial, C66_settles_partial, C66_torn_pair_refuted, C66_answer_changes_refuted |
| C67 | partial | C67_same_answer, C67_not_early, C67_exact, C67_bound_partial, C67_never_ends_refuted |
| C68 | partial | C68_safe, C68_no_preload, C68_own_environment_partial, C68_mixed_refuted, C68_lost_refuted |
| C69 | partial | C69_as_sequential_partial, C69_before_or_after_partial, C69_client_before_or_after_partial, C69_nothing_invented, C69_no_crash_partial, C69_default_crash_refuted, C69_client_crash_refuted, C69_mixed_refuted |
| C70 | partial | C70_abort, C70_alone, C70_race_refuted, C70_first_call_refuted |
| C71 | partial | C71_lock_publishes, C71_x86, C71_powerpc, C71_free_again, C71_no_isync_refuted, C71_arm_refuted |
| C72 | partial | C72_hand_over_partial, C72_reads_latest_partial, C72_unordered_refuted |
| C73 | partial | C73_no_loss_partial, C73_new_array_partial, C73_lost_for_good, C73_failed_create_refuted, C73_blocked_end_refuted, C73_exit_in_init_refuted |
| C74 | partial | C74_reaches_partial, C74_careful, C74_own_name, C74_each_return, C74_each_entry, C74_signal_refuted, C74_exit_in_handler_refuted, C74_foreign_refuted |
| C75 | partial | C75_fork_partial, C75_exec_partial, C75_real_execve, C75_sigaction, C75_signal, C75_sigprocmask, C75_sigwaitinfo, C75_sigwaitinfo_keeps, C75_sigwait, C75_system_partial, C75_dl_partial, C75_real_dl, C75_ignored_signal_partial, C75_end_signal_partial, C75_fork_refuted, C75_exec_refuted, C75_system_refuted, C75_dlopen_refuted, C75_signal_errno_refuted |
| C76 | partial | C76_pending_partial, C76_discard_refuted, C76_late_handler_refuted, C76_survives_refuted, C76_other_death_refuted, C76_client_signal_refuted |
| C77 | partial | C77_once_partial, C77_before_partial, C77_threaded_partial, C77_child_refuted, C77_create_in_callback_refuted, C77_exit_in_callback_refuted, C77_twice_refuted, C77_fork_in_window_refuted, C77_threaded_fork_refuted |
| C78 | partial | C78_parent, C78_child_partial, C78_number_partial, C78_create_partial, C78_thread_data_refuted, C78_late_refuted, C78_hang_refuted, C78_unknown_refuted |
| C79 | partial | C79_no_data, C79_pre_create_partial, C79_init_thread_partial, C79_init_process_partial, C79_fork_value, C79_stack_size |
| C80 | partial | C80_last_thread_partial, C80_cancelled_refuted, C80_child_refuted, C80_not_started_refuted |
| C81 | partial | C81_predicted, C81_later_exit, C81_expected_partial, C81_no_exit_callbacks_refuted, C81_not_started_refuted |
| C82 | partial | C82_ends_iff, C82_exit_ends_partial, C82_holder_partial, C82_stuck_fini_refuted, C82_lock_refuted |
| C83 | partial | C83_override_partial, C83_end_inside, C83_fini_library, C83_err_refuted, C83_quick_refuted, C83_malloc_refuted, C83_join_refuted, C83_sigaction_refuted |
| C84 | partial | C84_unhurt_partial, C84_cancel_stays, C84_cancel_refuted, C84_no_post_fork |
| C85 | partial | C85_bounded_partial, C85_progress, C85_ordinary, C85_returns, C85_all_partial, C85_child_refuted |
| C86 | proved | C86_nested, C86_within, C86_left, C86_closed, C86_closed_refuted |
| C87 | partial | C87_starts, C87_routine_partial, C87_ends, C87_exit_refuted |
| C88 | partial | C88_same_partial, C88_all_partial, C88_cause_partial, C88_value_partial, C88_fini_last, C88_fini_refuted, C88_init_refuted, C88_late_refuted, C88_main_exit_refuted |
| C89 | partial | C89_control, C89_nothing_invented, C89_since_fork, C89_answers_since_fork, C89_installed_since_fork, C89_answers_partial, C89_in_force_partial, C89_torn_refuted, C89_half_refuted, C89_handler_control, C89_handler_answers_partial, C89_handler_in_force_partial |

## Trusted base

* Coq 8.16.1's kernel (and `vm_compute`, part of the kernel).
* The model's fidelity: every definition cites the lines it models and the
  simplifications it makes.
* Axioms: `Print Assumptions` says "Closed under the global context" for every
  theorem in the table above; none of them depends on an axiom.  Loading the
  standard library's ssreflect-related files (through `Lia`) brings the
  seven constants of the module `Coq.ssr.ssrunder.Under_rel` into the
  environment (`Under_rel`, `Under_rel_from_rel`, `Under_relE`, `Over_rel`,
  `over_rel`, `over_rel_done`, `under_rel_done`); they are opaque module
  parameters of the standard library and no theorem uses them.

## What is not modelled

* Debug and warning output (MONITOR_DEBUG, MONITOR_WARN), message texts.
* MONITOR_ERROR paths for failing mmap and dlsym, and outside LifeErr*.v malloc, in
  the life-cycle machine (in ExecModel.v, LoaderModel.v and SignalModel.v they
  are the outcome `Fatal`).
* Weak memory: all machines except WeakModel.v are sequentially consistent; there, a load
  may be done early but not after its turn, and the compiler keeps the order of the program.
* The x86, ia64 and GNU-builtin variants of compare_and_swap (taken as one atomic
  instruction).
* siginfo and ucontext contents; errno outside Errno*.v and sigwait.
* The start-up code of the C library itself; main.c's own start-up functions are in
  StartModel.v (values, one thread) and in the life-cycle machine (order, threads).
* In SigOsModel.v the kernel's rules are taken from the Linux manual pages and are part
  of the trusted base; pending signals are modelled in Pend*.v only (as a set); elsewhere an arrival is a
  delivery.
* callback.c's default callbacks, except the values they return (LifeDefaultSpec.v, C79).
* The process end that the C library performs when the last thread ends.
* tests/, the build system and configure.
