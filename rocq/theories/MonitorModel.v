(** Model of include/cybozu/mutex.hpp (Mutex, AutoLockT), critical_section.hpp (CriticalSection, AutoLockCs) and of the
    POSIX branches of condition_variable.hpp and condition_variable_cs.hpp: threads that share data under one mutex.
    Mutex and CriticalSection are the same pthread mutex on POSIX, the two condition variables the same pthread_cond_t. *)
Require Import Verif.Common.

(** ** The mutex: its owner *)
(** mutex.hpp:76, 122-125 and critical_section.hpp:26, 44-47 lock.  A thread that locks the mutex it holds never
    returns (or, as POSIX says of the default kind, the behaviour is undefined) *)
Inductive locked := Got (o : option nat) | Busy | Self.
Definition m_lock (o : option nat) (t : nat) : locked :=
  match o with None => Got (Some t) | Some u => if Nat.eqb u t then Self else Busy end.
(** mutex.hpp:88, 132-135 and critical_section.hpp:27, 48-51 unlock: undefined if not the owner *)
Definition m_unlock (o : option nat) (t : nat) : option (option nat) :=
  match o with Some u => if Nat.eqb u t then Some None else None | None => None end.

(** ** Threads *)
Section Monitor.
Context {L S : Type}.
(** what a thread does with its own data L and the shared data S inside a scope
    { AutoLock lk(mutex); while (!guard) cv.wait(mutex); body }
    MayThrow: an expression that throws if c holds *)
Inductive act := Read (f : L -> S -> L) | Write (f : L -> S -> S) | MayThrow (c : L -> S -> bool) | NotifyAll | NotifyOne.
Record scope := mk_scope { guard : L -> S -> bool; body : list act }.
(** where a thread is: outside, at the test of the guard, asleep in wait, woken up but without the mutex, in the body,
    at the destructor of lk *)
Inductive pc := Out | Test (s : scope) | Asleep (s : scope) | Woken (s : scope) | In (k : list act) | Leave.
Record thread := mk_t { loc : L; at_ : pc; todo : list scope }.
Record mon := mk_m { owner : option nat; shared : S; thr : list thread }.

(** Blocked: waits for the mutex (or has finished); Bad: undefined *)
Inductive outcome := Blocked | Bad | Next (m : mon).
Definition set_t (m : mon) (o : option nat) (s : S) (t : nat) (x : thread) : mon := mk_m o s (upd (thr m) t x).
Definition asleep (x : thread) : bool := match at_ x with Asleep _ => true | _ => false end.
Definition wake (x : thread) : thread := match at_ x with Asleep s => mk_t (loc x) (Woken s) (todo x) | _ => x end.
Definition owns (m : mon) (t : nat) : bool := match owner m with Some u => Nat.eqb u t | None => false end.
(** One step of thread t; w: the thread that notifyOne wakes up *)
Definition step (m : mon) (t w : nat) : outcome :=
  match nth_error (thr m) t with
  | None => Blocked
  | Some x =>
    match at_ x with
    | Out =>
      match todo x with
      | [] => Blocked
      (* mutex.hpp:95-99 the constructor of AutoLockT *)
      | s :: rest => match m_lock (owner m) t with Got o => Next (set_t m o (shared m) t (mk_t (loc x) (Test s) rest)) | Busy => Blocked | Self => Bad end
      end
    | Test s =>
      if negb (owns m t) then Bad else
      if guard s (loc x) (shared m) then Next (set_t m (owner m) (shared m) t (mk_t (loc x) (In (body s)) (todo x)))
      (* condition_variable.hpp:57 and condition_variable_cs.hpp:49 pthread_cond_wait: unlocks and sleeps in one step *)
      else match m_unlock (owner m) t with Some o => Next (set_t m o (shared m) t (mk_t (loc x) (Asleep s) (todo x))) | None => Bad end
    (* pthread_cond_wait may return without a notification *)
    | Asleep s => Next (set_t m (owner m) (shared m) t (wake x))
    (* ... and returns with the mutex *)
    | Woken s => match m_lock (owner m) t with Got o => Next (set_t m o (shared m) t (mk_t (loc x) (Test s) (todo x))) | Busy => Blocked | Self => Bad end
    (* access to the shared data without the mutex would be a data race *)
    | In (Read f :: k) => if owns m t then Next (set_t m (owner m) (shared m) t (mk_t (f (loc x) (shared m)) (In k) (todo x))) else Bad
    | In (Write f :: k) => if owns m t then Next (set_t m (owner m) (f (loc x) (shared m)) t (mk_t (loc x) (In k) (todo x))) else Bad
    | In (MayThrow c :: k) =>
      if owns m t then Next (set_t m (owner m) (shared m) t (mk_t (loc x) (if c (loc x) (shared m) then Leave else In k) (todo x))) else Bad
    (* condition_variable.hpp:96 and condition_variable_cs.hpp:65 *)
    | In (NotifyAll :: k) => Next (mk_m (owner m) (shared m) (map wake (upd (thr m) t (mk_t (loc x) (In k) (todo x)))))
    (* condition_variable.hpp:71 and condition_variable_cs.hpp:57: wakes one up if one is asleep *)
    | In (NotifyOne :: k) =>
      let ts := upd (thr m) t (mk_t (loc x) (In k) (todo x)) in
      if existsb asleep ts then
        match nth_error ts w with
        | Some y => if asleep y then Next (mk_m (owner m) (shared m) (upd ts w (wake y))) else Blocked
        | None => Blocked
        end
      else Next (mk_m (owner m) (shared m) ts)
    | In [] => Next (set_t m (owner m) (shared m) t (mk_t (loc x) Leave (todo x)))
    (* mutex.hpp:100-103 the destructor of AutoLockT, also on the way of an exception (which is caught outside) *)
    | Leave => match m_unlock (owner m) t with Some o => Next (set_t m o (shared m) t (mk_t (loc x) Out (todo x))) | None => Bad end
    end
  end.
(** a schedule: who runs, and who is woken up; a blocked thread does not move *)
Fixpoint run (m : mon) (sched : list (nat * nat)) : outcome :=
  match sched with
  | [] => Next m
  | (t, w) :: r => match step m t w with Next m' => run m' r | Blocked => run m r | Bad => Bad end
  end.
End Monitor.
Arguments act : clear implicits. Arguments scope : clear implicits. Arguments pc : clear implicits. Arguments thread : clear implicits.
Arguments mon : clear implicits. Arguments outcome : clear implicits.

(** ** AutoLockT objects of one thread: mutex.hpp:92-107 declares no copy constructor, so the implicit one exists *)
Inductive lop := LNew (mutex : nat) | LCopy (obj : nat) | LDel (obj : nat).
Record lst := mk_l { owned : list bool; objs : list (option nat) }.
(** owned: which mutexes the thread holds; objs: the mutex each live object refers to *)
Definition lstep (s : lst) (o : lop) : res lst :=
  match o with
  | LNew k => match nth_error (owned s) k with
              | Some false => Ok (mk_l (upd (owned s) k true) (objs s ++ [Some k]))
              | _ => UB
              end
  | LCopy i => match nth_error (objs s) i with Some (Some k) => Ok (mk_l (owned s) (objs s ++ [Some k])) | _ => UB end
  | LDel i => match nth_error (objs s) i with
              | Some (Some k) => match nth_error (owned s) k with
                                 | Some true => Ok (mk_l (upd (owned s) k false) (upd (objs s) i None))
                                 | _ => UB
                                 end
              | _ => UB
              end
  end.
Fixpoint lrun (s : lst) (l : list lop) : res lst := match l with [] => Ok s | o :: l => let! s := lstep s o in lrun s l end.
