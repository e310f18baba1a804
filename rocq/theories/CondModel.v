(** Model of include/cybozu/condition_variable.hpp (Windows branch): a condition variable made of a semaphore, an event and a counter.
    Any number of threads, one mutex, one condition variable; a schedule says which thread takes the next step.
    The critical sections on waiterNumLock_ are single steps: nothing inside them waits.  SignalObjectAndWait is two steps, since Windows
    does not promise that it is one.  Not modelled: locking the mutex again in the thread that holds it, failing CreateSemaphore/CreateEvent. *)
Require Import Verif.Common.

(** where a thread is *)
Inductive cpc :=
| Idle          (* outside, without the mutex *)
| Held          (* outside, with the mutex *)
| W1            (* wait: counted, mutex not yet released (condition_variable.hpp:44) *)
| W2            (* wait: waiting for the semaphore *)
| W3            (* wait: has a unit of the semaphore, before the second critical section (45-50) *)
| W4            (* wait: the last waiter of a broadcast, before signalling waiterDone_ (52) *)
| W5            (* wait: waiting for the mutex (52, 54) *)
| N2 (h : bool) (* notifyOne: before ReleaseSemaphore (68); h: with the mutex *)
| A2 (h : bool) (* notifyAll: waiting for waiterDone_ (90) *)
| A3 (h : bool) (* notifyAll: before wasBroadcast_ = false (91) *).
Inductive cev :=
| EWait (t : nat)               (* wait is called *)
| EWoke (t : nat)               (* it got its unit of the semaphore *)
| EReturn (t : nat)             (* it returns *)
| EOne (t : nat)                (* notifyOne is called *)
| EAll (t : nat) (h : bool)     (* notifyAll is called; h: with the mutex *)
| EAllRet (t : nat)             (* notifyAll returns *)
| EFull.                        (* ReleaseSemaphore fails: more than 0x7fffffff units *)
(** what a thread that is outside does next *)
Inductive act := Lock | Unlock | Wait | One | All | Go.
(** condition_variable.hpp:103-107 the members, the mutex, the threads *)
Record cond := mk_cond { c_th : list cpc; c_owner : option nat; c_wn : Z; c_sema : Z; c_done : bool; c_bc : bool }.
(** condition_variable.hpp:18-22 *)
Definition cond0 (n : nat) : cond := mk_cond (repeat Idle n) None 0 0 false false.
Definition semaMax := 0x7fffffff.
Definition back (h : bool) : cpc := if h then Held else Idle.

(** one step of thread t; None: it has to wait (or the call makes no sense) *)
Definition cstep (s : cond) (t : nat) (a : act) : option (cond * list cev) :=
  let 'mk_cond th ow wn sema done bc := s in
  let go p := upd th t p in
  (* condition_variable.hpp:60-73 notifyOne *)
  let one h := if 0 <? wn then Some (mk_cond (go (N2 h)) ow wn sema done bc, [EOne t]) else Some (s, [EOne t]) in
  (* condition_variable.hpp:74-100 notifyAll *)
  let all h := if 0 <? wn
               then if sema + wn <=? semaMax then Some (mk_cond (go (A2 h)) ow wn (sema + wn) done true, [EAll t h])
                    else Some (mk_cond (go (A2 h)) ow wn sema done true, [EAll t h; EFull])
               else Some (s, [EAll t h; EAllRet t]) in
  match nth_error th t with
  | None => None
  | Some p =>
    match p, a with
    | Idle, Lock => match ow with None => Some (mk_cond (go Held) (Some t) wn sema done bc, []) | Some _ => None end
    | Held, Unlock => Some (mk_cond (go Idle) None wn sema done bc, [])
    | Idle, One => one false
    | Held, One => one true
    | Idle, All => all false
    | Held, All => all true
    | Idle, _ | Held, (Lock | Go) => None
    (* condition_variable.hpp:37-59 wait *)
    | Held, Wait => Some (mk_cond (go W1) ow (wn + 1) sema done bc, [EWait t])
    | W1, _ => Some (mk_cond (go W2) None wn sema done bc, [])
    | W2, _ => if 0 <? sema then Some (mk_cond (go W3) ow wn (sema - 1) done bc, [EWoke t]) else None
    | W3, _ => Some (mk_cond (go (if bc && (wn - 1 =? 0) then W4 else W5)) ow (wn - 1) sema done bc, [])
    | W4, _ => Some (mk_cond (go W5) ow wn sema true bc, [])
    | W5, _ => match ow with None => Some (mk_cond (go Held) (Some t) wn sema done bc, [EReturn t]) | Some _ => None end
    | N2 h, _ => if sema <? semaMax then Some (mk_cond (go (back h)) ow wn (sema + 1) done bc, [])
                 else Some (mk_cond (go (back h)) ow wn sema done bc, [EFull])
    (* waiterDone_ is an auto-reset event *)
    | A2 h, _ => if done then Some (mk_cond (go (A3 h)) ow wn sema false bc, []) else None
    | A3 h, _ => Some (mk_cond (go (back h)) ow wn sema done false, [EAllRet t])
    end
  end.
(** a schedule; a thread that cannot go on stays where it is *)
Fixpoint crun (s : cond) (sch : list (nat * act)) : cond * list cev :=
  match sch with
  | [] => (s, [])
  | (t, a) :: r =>
    match cstep s t a with
    | Some (s, tr) => let (s, tr') := crun s r in (s, tr ++ tr')
    | None => crun s r
    end
  end.
