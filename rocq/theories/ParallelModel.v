(** Model of include/cybozu/parallel.hpp and of the part of include/cybozu/thread.hpp it uses.
    The threads are interleaved: one step is one atomic action of the main thread or of one worker.  A call of the body is
    two steps (it starts, it ends), so calls of different threads overlap in every possible way.
    N is an unsigned type of w bits (a signed N with nonnegative arguments computes the same values). *)
Require Import Verif.Common.

Section Parallel.
Variable w : Z.
Definition wrapN (x : Z) : Z := x mod 2 ^ w.

(** what one call of the body on (i, threadIdx_) does: return true or false, or throw a std::exception with that what().
    An exception of another type would leave threadEntry and terminate the program; it is not modelled. *)
Inductive outcome := RTrue | RFalse | RThrow (msg : list Z).

(** parallel.hpp:39-49: position of a worker in threadEntry.  TNew: not started by the system; TAt i: about to test i < end_;
    TIn i: inside the call for i; TDone: returned (c = first index it did not call). *)
Inductive tstat := TNew | TAt (i : Z) | TIn (i : Z) | TDone (c : Z).
(** parallel.hpp:18-38 Thread; t_dead: the derived part (and err_) has been destroyed *)
Record thr := mk_thr { t_lo : Z; t_hi : Z; t_idx : Z; t_st : tstat; t_err : list Z; t_dead : bool }.
Definition set_st (t : thr) (s : tstat) : thr := mk_thr (t_lo t) (t_hi t) (t_idx t) s (t_err t) (t_dead t).
Definition set_err (t : thr) (e : list Z) : thr := mk_thr (t_lo t) (t_hi t) (t_idx t) (t_st t) e (t_dead t).
Definition kill (t : thr) : thr := mk_thr (t_lo t) (t_hi t) (t_idx t) (t_st t) (t_err t) true.

(** parallel.hpp:65-74: n is divided into threadNum ranges *)
Fixpoint split (cnt : nat) (i begin q r : Z) : list thr :=
  match cnt with
  | O => []
  | S cnt =>
      let e := wrapN (begin + q) in
      let e := if i <? r then wrapN (e + 1) else e in
      mk_thr begin e i TNew [] false :: split cnt (i + 1) e q r
  end.

(** parallel.hpp:75-84: the main thread.  MDestroy k: unwinding after a failed beginThread, destroying thread[k-1], thread[k-2], ...
    in reverse order (array.hpp:53-56); the flag says that the derived destructor of thread[k-1] has run *)
Inductive mstat := MBegin (k : nat) | MJoin (k : nat) | MCheck (k : nat) | MDestroy (k : nat) (half : bool)
  | MReturn | MThrow (k : nat) (msg : list Z) | MBeginError.
Inductive ev := Start (i tid : Z) | End (i tid : Z) (o : outcome).
Record sys := mk_sys { s_main : mstat; s_thr : list thr; s_tr : list ev; s_ub : bool }.
Definition set_thr (s : sys) (k : nat) (t : thr) : sys := mk_sys (s_main s) (upd (s_thr s) k t) (s_tr s) (s_ub s).

(** parallel.hpp:57-62 *)
Inductive entry := EReturn | EThrow | ERun (s : sys).
Definition parallel_for (n threadNum : Z) : entry :=
  if n =? 0 then EReturn
  else if threadNum =? 0 then EThrow
  else
    let threadNum := if threadNum >? n then n else threadNum in
    ERun (mk_sys (MBegin 0) (split (Z.to_nat threadNum) 0 0 (wrapN (n / threadNum)) (wrapN (n mod threadNum))) [] false).

Variable body : Z -> Z -> outcome -> Prop.     (* the outcomes a call body(i, threadIdx) may have *)
Variable beginOk : nat -> bool.                (* does beginThread of thread k succeed (resources) *)

(** parallel.hpp:39-49 threadEntry *)
Inductive tstep : thr -> list ev -> thr -> Prop :=
| t_call : forall t i, t_st t = TAt i -> i < t_hi t -> tstep t [Start i (t_idx t)] (set_st t (TIn i))
| t_exit : forall t i, t_st t = TAt i -> t_hi t <= i -> tstep t [] (set_st t (TDone i))
| t_true : forall t i, t_st t = TIn i -> body i (t_idx t) RTrue -> tstep t [End i (t_idx t) RTrue] (set_st t (TAt (wrapN (i + 1))))
| t_false : forall t i, t_st t = TIn i -> body i (t_idx t) RFalse -> tstep t [End i (t_idx t) RFalse] (set_st t (TDone (i + 1)))
| t_throw : forall t i m, t_st t = TIn i -> body i (t_idx t) (RThrow m) ->
    tstep t [End i (t_idx t) (RThrow m)] (set_err (set_st t (TDone (i + 1))) m).

(** thread.hpp:201-204 beginThread, 215-222 joinThread (waits for the thread; returns at once if it was not begun),
    196-199 ~ThreadBase, which joins after the derived part is gone *)
Definition joinable (t : thr) : Prop := match t_st t with TDone _ | TNew => True | _ => False end.
Inductive step : sys -> sys -> Prop :=
| s_begin : forall s k t, s_main s = MBegin k -> nth_error (s_thr s) k = Some t -> beginOk k = true ->
    step s (mk_sys (MBegin (S k)) (upd (s_thr s) k (set_st t (TAt (t_lo t)))) (s_tr s) (s_ub s))
| s_begin_fail : forall s k t, s_main s = MBegin k -> nth_error (s_thr s) k = Some t -> beginOk k = false ->
    step s (mk_sys (MDestroy (length (s_thr s)) false) (s_thr s) (s_tr s) (s_ub s))
| s_begun : forall s k, s_main s = MBegin k -> nth_error (s_thr s) k = None -> step s (mk_sys (MJoin 0) (s_thr s) (s_tr s) (s_ub s))
| s_join : forall s k t, s_main s = MJoin k -> nth_error (s_thr s) k = Some t -> joinable t ->
    step s (mk_sys (MJoin (S k)) (s_thr s) (s_tr s) (s_ub s))
| s_joined : forall s k, s_main s = MJoin k -> nth_error (s_thr s) k = None -> step s (mk_sys (MCheck 0) (s_thr s) (s_tr s) (s_ub s))
| s_check : forall s k t, s_main s = MCheck k -> nth_error (s_thr s) k = Some t -> t_err t = [] ->
    step s (mk_sys (MCheck (S k)) (s_thr s) (s_tr s) (s_ub s))
| s_check_err : forall s k t, s_main s = MCheck k -> nth_error (s_thr s) k = Some t -> t_err t <> [] ->
    step s (mk_sys (MThrow k (t_err t)) (s_thr s) (s_tr s) (s_ub s))
| s_checked : forall s k, s_main s = MCheck k -> nth_error (s_thr s) k = None -> step s (mk_sys MReturn (s_thr s) (s_tr s) (s_ub s))
| s_destroy : forall s k t, s_main s = MDestroy (S k) false -> nth_error (s_thr s) k = Some t ->
    step s (mk_sys (MDestroy (S k) true) (upd (s_thr s) k (kill t)) (s_tr s) (s_ub s))
| s_destroy_join : forall s k t, s_main s = MDestroy (S k) true -> nth_error (s_thr s) k = Some t -> joinable t ->
    step s (mk_sys (MDestroy k false) (s_thr s) (s_tr s) (s_ub s))
| s_destroyed : forall s, s_main s = MDestroy 0 false -> step s (mk_sys MBeginError (s_thr s) (s_tr s) (s_ub s))
| s_thread : forall s k t es t', nth_error (s_thr s) k = Some t -> tstep t es t' ->
    step s (mk_sys (s_main s) (upd (s_thr s) k t') (s_tr s ++ es) (s_ub s || t_dead t)).

Inductive steps : sys -> sys -> Prop :=
| steps_refl : forall s, steps s s
| steps_cons : forall a b c, steps a b -> step b c -> steps a c.
End Parallel.
