(** Ownership of OS handles: cybozu::Socket (include/cybozu/socket.hpp) and cybozu::ThreadBase (include/cybozu/thread.hpp), with
    the atomic exchange of include/cybozu/atomic.hpp.  Any number of threads use any number of objects; one step is one atomic
    memory access or system call.  The system may hand out a number again as soon as it has been released.
    Not modelled: the data race of a plain store to sd_ with a concurrent exchange beyond its interleavings. *)
Require Import Verif.Common.

Section Handle.
(** socket.hpp:383 INVALID_SOCKET (-1); thread.hpp:192-195: 0.  The system never returns it for a new handle. *)
Variable invalid : Z.

(** how a handle is given back: ::close, pthread_join, pthread_detach *)
Inductive rel := RClose | RJoin | RDetach.
Inductive hev := HAlloc (h : Z) | HRelease (r : rel) (h : Z).
(** what a thread does next with the value in its local variable *)
Inductive cont := KDone | KMove (dst src : nat).
Inductive hpc :=
| HIdle
| HRel (r : rel) (h : Z) (c : cont)   (* took h by the exchange, about to release it *)
| HTake (dst src : nat)               (* moveFrom: about to take the handle of src *)
| HStore (dst : nat) (h : Z).         (* about to store h into dst *)
Record hsys := mk_hsys { h_cell : list Z; h_pc : list hpc; h_open : list Z; h_tr : list hev; h_bad : bool }.

Definition after (c : cont) : hpc := match c with KDone => HIdle | KMove d s => HTake d s end.
(** atomic.hpp:135-139 AtomicExchange of cell k with invalid, then the test of socket.hpp:422-423, thread.hpp:208-209, 217-218 *)
Definition took (r : rel) (h : Z) (c : cont) : hpc := if h =? invalid then after c else HRel r h c.
Definition set_pc (s : hsys) (t : nat) (p : hpc) := mk_hsys (h_cell s) (upd (h_pc s) t p) (h_open s) (h_tr s) (h_bad s).

Definition removeZ (h : Z) (l : list Z) : list Z := filter (fun x => negb (x =? h)) l.
Inductive hstep : hsys -> hsys -> Prop :=
(* Socket::close and ~Socket socket.hpp:415-433; ThreadBase::joinThread, detachThread and ~ThreadBase thread.hpp:196-199, 206-222 *)
| h_close : forall s t k r x, nth_error (h_pc s) t = Some HIdle -> nth_error (h_cell s) k = Some x ->
    hstep s (mk_hsys (upd (h_cell s) k invalid) (upd (h_pc s) t (took r x KDone)) (h_open s) (h_tr s) (h_bad s))
(* moveFrom and operator= socket.hpp:401-414: close() first *)
| h_move : forall s t d k x, nth_error (h_pc s) t = Some HIdle -> nth_error (h_cell s) d = Some x -> (k < length (h_cell s))%nat ->
    hstep s (mk_hsys (upd (h_cell s) d invalid) (upd (h_pc s) t (took RClose x (KMove d k))) (h_open s) (h_tr s) (h_bad s))
(* move constructor socket.hpp:394-398: the new object starts invalid and is not yet shared *)
| h_construct : forall s t d k, nth_error (h_pc s) t = Some HIdle -> (d < length (h_cell s))%nat -> (k < length (h_cell s))%nat ->
    hstep s (set_pc s t (HTake d k))
(* connect (refuses a valid object: socket.hpp:548-549), bind and accept (do not check: 583, 673-684), pthread_create thread.hpp:200-203 *)
| h_alloc : forall s t d h, nth_error (h_pc s) t = Some HIdle -> (d < length (h_cell s))%nat -> h <> invalid -> ~ In h (h_open s) ->
    hstep s (mk_hsys (h_cell s) (upd (h_pc s) t (HStore d h)) (h :: h_open s) (h_tr s ++ [HAlloc h]) (h_bad s))
(* ::socket or ::accept fails: -1 is stored all the same (socket.hpp:549, 583, 678, 681) *)
| h_alloc_fail : forall s t d, nth_error (h_pc s) t = Some HIdle -> (d < length (h_cell s))%nat -> hstep s (set_pc s t (HStore d invalid))
(* the system call; releasing a handle that is not open is the double close *)
| h_release : forall s t r h c, nth_error (h_pc s) t = Some (HRel r h c) ->
    hstep s (mk_hsys (h_cell s) (upd (h_pc s) t (after c)) (removeZ h (h_open s)) (h_tr s ++ [HRelease r h])
               (h_bad s || negb (existsb (Z.eqb h) (h_open s))))
(* the same, but close reports an error and Socket::close throws out of moveFrom *)
| h_release_throw : forall s t r h c, nth_error (h_pc s) t = Some (HRel r h c) ->
    hstep s (mk_hsys (h_cell s) (upd (h_pc s) t HIdle) (removeZ h (h_open s)) (h_tr s ++ [HRelease r h])
               (h_bad s || negb (existsb (Z.eqb h) (h_open s))))
(* socket.hpp:397, 404 the exchange on the source, then the store to sd_ *)
| h_take : forall s t d k x, nth_error (h_pc s) t = Some (HTake d k) -> nth_error (h_cell s) k = Some x ->
    hstep s (mk_hsys (upd (h_cell s) k invalid) (upd (h_pc s) t (HStore d x)) (h_open s) (h_tr s) (h_bad s))
| h_store : forall s t d h, nth_error (h_pc s) t = Some (HStore d h) -> (d < length (h_cell s))%nat ->
    hstep s (mk_hsys (upd (h_cell s) d h) (upd (h_pc s) t HIdle) (h_open s) (h_tr s) (h_bad s)).

Definition h_init (objects threads : nat) : hsys := mk_hsys (repeat invalid objects) (repeat HIdle threads) [] [] false.
Inductive hreach (objects threads : nat) : hsys -> Prop :=
| hr_init : hreach objects threads (h_init objects threads)
| hr_step : forall s s', hreach objects threads s -> hstep s s' -> hreach objects threads s'.
End Handle.
