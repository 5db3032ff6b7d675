(** Model of the start-function address tests: src/main.c 374-401 and src/pthread.c
    696-743, and their weak defaults in main.c 704-714, 746-751.  A label is an
    address; where the linker puts the functions is arbitrary. *)
From Coq Require Export ZArith Bool Lia.
Open Scope Z_scope.

(** monitor_main_fence1..4 (main.c 508, 520, 531, 535) and monitor_thread_fence1..4
    (pthread.c 947, 990, 992, 996). *)
Record labels := mklabels { f1 : Z; f2 : Z; f3 : Z; f4 : Z }.

(** main.c 374-379, monitor_unwind_process_bottom_frame *)
Definition unwind_process_bottom_frame (m : labels) (addr : Z) : bool :=
  (f1 m <=? addr) && (addr <=? f4 m).
(** main.c 385-390, monitor_in_main_start_func_wide *)
Definition in_main_start_func_wide (m : labels) (addr : Z) : bool :=
  (f1 m <=? addr) && (addr <=? f4 m).
(** main.c 396-401, monitor_in_main_start_func_narrow *)
Definition in_main_start_func_narrow (m : labels) (addr : Z) : bool :=
  (f2 m <=? addr) && (addr <=? f3 m).

(** pthread.c 696-701, monitor_unwind_thread_bottom_frame *)
Definition unwind_thread_bottom_frame (t : labels) (addr : Z) : bool :=
  (f1 t <=? addr) && (addr <=? f4 t).
(** pthread.c 723-729, monitor_in_start_func_wide *)
Definition in_start_func_wide (m t : labels) (addr : Z) : bool :=
  in_main_start_func_wide m addr || ((f1 t <=? addr) && (addr <=? f4 t)).
(** pthread.c 736-743, monitor_in_start_func_narrow *)
Definition in_start_func_narrow (m t : labels) (addr : Z) : bool :=
  in_main_start_func_narrow m addr || ((f2 t <=? addr) && (addr <=? f3 t)).

(** Weak defaults, used when the thread functions are not linked in: main.c 704-714
    and 746-751. *)
Definition weak_in_start_func_wide (m : labels) (addr : Z) : bool := in_main_start_func_wide m addr.
Definition weak_in_start_func_narrow (m : labels) (addr : Z) : bool := in_main_start_func_narrow m addr.
Definition weak_unwind_thread_bottom_frame (addr : Z) : bool := false.
