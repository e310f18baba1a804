(** Model of include/cybozu/event.hpp, the C++11 build (mutex and condition variable) and the pipe build.
    Any number of threads, each calling wakeup() and wait() at any time; one step is one atomic action of one thread. *)
Require Import Verif.Common.

(** what a user observes, in order *)
Inductive eev := CallWake (k : nat) | RetWake (k : nat) | CallWait (k : nat) | RetWait (k : nat).

(** ** C++11 build *)
(** event.hpp:73-84: where a thread is.  Lock = waiting for the mutex; WkSet, WkNotify, WkUnlock, WtCheck, WtUnlock hold it;
    Asleep = blocked in the condition variable; Awake = notified or spuriously woken, waiting for the mutex again *)
Inductive epc := Idle | WkLock | WkSet | WkNotify | WkUnlock | WtLock | WtCheck | Asleep | Awake | WtUnlock.
(** event.hpp:65-72 *)
Record cv := mk_cv { c_sig : bool; c_own : option nat; c_pc : list epc; c_tr : list eev }.
Definition cv_new (threads : nat) : cv := mk_cv false None (repeat Idle threads) [].
Definition go (s : cv) (k : nat) (p : epc) := upd (c_pc s) k p.

(** a thread starts a call: the environment's choice *)
Inductive ext_step : cv -> cv -> Prop :=
| x_wake : forall s k, nth_error (c_pc s) k = Some Idle -> ext_step s (mk_cv (c_sig s) (c_own s) (go s k WkLock) (c_tr s ++ [CallWake k]))
| x_wait : forall s k, nth_error (c_pc s) k = Some Idle -> ext_step s (mk_cv (c_sig s) (c_own s) (go s k WtLock) (c_tr s ++ [CallWait k]))
(* spurious wakeup of std::condition_variable::wait *)
| x_spurious : forall s k, nth_error (c_pc s) k = Some Asleep -> ext_step s (mk_cv (c_sig s) (c_own s) (go s k Awake) (c_tr s)).

Inductive int_step : cv -> cv -> Prop :=
(* event.hpp:75, 81: unique_lock; re-acquisition inside cv_.wait *)
| i_lock : forall s k p p', nth_error (c_pc s) k = Some p -> c_own s = None ->
    (p = WkLock /\ p' = WkSet \/ p = WtLock /\ p' = WtCheck \/ p = Awake /\ p' = WtCheck) ->
    int_step s (mk_cv (c_sig s) (Some k) (go s k p') (c_tr s))
(* event.hpp:76 isSignaled_ = true *)
| i_set : forall s k, nth_error (c_pc s) k = Some WkSet -> int_step s (mk_cv true (c_own s) (go s k WkNotify) (c_tr s))
(* event.hpp:77 notify_one: one sleeping thread, any of them, is woken; nothing if none sleeps *)
| i_notify : forall s k j, nth_error (c_pc s) k = Some WkNotify -> nth_error (c_pc s) j = Some Asleep ->
    int_step s (mk_cv (c_sig s) (c_own s) (upd (go s k WkUnlock) j Awake) (c_tr s))
| i_notify_none : forall s k, nth_error (c_pc s) k = Some WkNotify -> (forall j, nth_error (c_pc s) j <> Some Asleep) ->
    int_step s (mk_cv (c_sig s) (c_own s) (go s k WkUnlock) (c_tr s))
(* event.hpp:78 *)
| i_wake_ret : forall s k, nth_error (c_pc s) k = Some WkUnlock -> int_step s (mk_cv (c_sig s) None (go s k Idle) (c_tr s ++ [RetWake k]))
(* event.hpp:82 cv_.wait: while (!isSignaled_) release the mutex and sleep, atomically; 83 isSignaled_ = false *)
| i_sleep : forall s k, nth_error (c_pc s) k = Some WtCheck -> c_sig s = false -> int_step s (mk_cv false None (go s k Asleep) (c_tr s))
| i_take : forall s k, nth_error (c_pc s) k = Some WtCheck -> c_sig s = true -> int_step s (mk_cv false (c_own s) (go s k WtUnlock) (c_tr s))
(* event.hpp:84 *)
| i_wait_ret : forall s k, nth_error (c_pc s) k = Some WtUnlock -> int_step s (mk_cv (c_sig s) None (go s k Idle) (c_tr s ++ [RetWait k])).

Definition cv_step (s s' : cv) : Prop := ext_step s s' \/ int_step s s'.
Inductive cv_reach (threads : nat) : cv -> Prop :=
| cvr_new : cv_reach threads (cv_new threads)
| cvr_step : forall s s', cv_reach threads s -> cv_step s s' -> cv_reach threads s'.

(** ** Pipe build *)
(** event.hpp:88-118: the pipe holds bytes (capacity cap); a write blocks while the pipe is full, a read while it is empty.
    intr says whether signal handlers may interrupt the system calls (EINTR); both functions ignore the result. *)
Inductive ppc := PIdle | PWriting | PReading.
Record pipe := mk_pipe { p_bytes : Z; p_pc : list ppc; p_tr : list eev }.
Definition pipe_new (threads : nat) : pipe := mk_pipe 0 (repeat PIdle threads) [].
Inductive pipe_step (cap : Z) (intr : bool) : pipe -> pipe -> Prop :=
| p_wake : forall s k, nth_error (p_pc s) k = Some PIdle -> pipe_step cap intr s (mk_pipe (p_bytes s) (upd (p_pc s) k PWriting) (p_tr s ++ [CallWake k]))
| p_wait : forall s k, nth_error (p_pc s) k = Some PIdle -> pipe_step cap intr s (mk_pipe (p_bytes s) (upd (p_pc s) k PReading) (p_tr s ++ [CallWait k]))
| p_write : forall s k, nth_error (p_pc s) k = Some PWriting -> p_bytes s < cap ->
    pipe_step cap intr s (mk_pipe (p_bytes s + 1) (upd (p_pc s) k PIdle) (p_tr s ++ [RetWake k]))
| p_read : forall s k, nth_error (p_pc s) k = Some PReading -> 0 < p_bytes s ->
    pipe_step cap intr s (mk_pipe (p_bytes s - 1) (upd (p_pc s) k PIdle) (p_tr s ++ [RetWait k]))
| p_write_intr : forall s k, intr = true -> nth_error (p_pc s) k = Some PWriting ->
    pipe_step cap intr s (mk_pipe (p_bytes s) (upd (p_pc s) k PIdle) (p_tr s ++ [RetWake k]))
| p_read_intr : forall s k, intr = true -> nth_error (p_pc s) k = Some PReading ->
    pipe_step cap intr s (mk_pipe (p_bytes s) (upd (p_pc s) k PIdle) (p_tr s ++ [RetWait k])).
Inductive pipe_reach (cap : Z) (intr : bool) (threads : nat) : pipe -> Prop :=
| pr_new : pipe_reach cap intr threads (pipe_new threads)
| pr_step : forall s s', pipe_reach cap intr threads s -> pipe_step cap intr s s' -> pipe_reach cap intr threads s'.

(** ** Windows build *)
(** event.hpp:31-61: an auto-reset kernel event; SetEvent signals it, WaitForSingleObject atomically takes the signal *)
Record win := mk_win { n_sig : bool; n_pc : list ppc; n_tr : list eev }.
Definition win_new (threads : nat) : win := mk_win false (repeat PIdle threads) [].
Inductive win_step : win -> win -> Prop :=
| n_wake : forall s k, nth_error (n_pc s) k = Some PIdle -> win_step s (mk_win (n_sig s) (upd (n_pc s) k PWriting) (n_tr s ++ [CallWake k]))
| n_wait : forall s k, nth_error (n_pc s) k = Some PIdle -> win_step s (mk_win (n_sig s) (upd (n_pc s) k PReading) (n_tr s ++ [CallWait k]))
| n_set : forall s k, nth_error (n_pc s) k = Some PWriting -> win_step s (mk_win true (upd (n_pc s) k PIdle) (n_tr s ++ [RetWake k]))
| n_take : forall s k, nth_error (n_pc s) k = Some PReading -> n_sig s = true ->
    win_step s (mk_win false (upd (n_pc s) k PIdle) (n_tr s ++ [RetWait k])).
Inductive win_reach (threads : nat) : win -> Prop :=
| nr_new : win_reach threads (win_new threads)
| nr_step : forall s s', win_reach threads s -> win_step s s' -> win_reach threads s'.
