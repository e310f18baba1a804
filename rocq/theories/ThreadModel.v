(** Model of Sleep, GetProcessorNum and thread::Begin of include/cybozu/thread.hpp (POSIX branches).
    Times are in nanoseconds.  The system calls are modelled from POSIX as Linux implements them. *)
Require Import Verif.Common.
Import ListNotations.
Local Open Scope Z_scope.

(** ** nanosleep *)
Definition giga : Z := 1000000000.
Record timespec := mk_ts { tv_sec : Z; tv_nsec : Z }.
Definition nanos (t : timespec) : Z := tv_sec t * giga + tv_nsec t.
Definition of_nanos (n : Z) : timespec := mk_ts (n / giga) (n mod giga).
Definition EINTR : Z := 4.
Definition EINVAL : Z := 22.
(** what the system decides during one call: a signal handler ran after e nanoseconds, or none did and the call
    returned [late] nanoseconds after the time was over *)
Inductive nap := Signal (e : Z) | Quiet (late : Z).
Inductive napResult := Slept | Failed (errno : Z) (rem : timespec).
(** result, time that went by; rem is only written on EINTR *)
Definition nanosleep (req rem0 : timespec) (d : nap) : napResult * Z :=
  if (tv_sec req <? 0) || (tv_nsec req <? 0) || (giga <=? tv_nsec req) then (Failed EINVAL rem0, 0) else
  match d with
  | Signal e =>
      let e := Z.max 0 e in
      if e <? nanos req then (Failed EINTR (of_nanos (nanos req - e)), e) else (Slept, e)
  | Quiet late => (Slept, nanos req + Z.max 0 late)
  end.
(** thread.hpp:44-53 the loop.  Result: the calls made (their requests), the time that went by, the errno printed if any.
    One decision of the system for each call; Fuel: the decisions given are used up. *)
Fixpoint sleep_loop (ds : list nap) (req : timespec) (garbage : timespec) : res (list timespec * Z * option Z) :=
  match ds with
  | [] => Fuel
  | d :: ds =>
      let (r, t) := nanosleep req garbage d in
      match r with
      | Slept => Ok ([req], t, None)
      | Failed errno rem =>
          if negb (errno =? EINTR) then Ok ([req], t, Some errno)
          else let! (l, t', m) := sleep_loop ds rem garbage in Ok (req :: l, t + t', m)
      end
  end.
(** thread.hpp:36-55 Sleep; / and % of int round to zero *)
Definition Sleep (msec : Z) (ds : list nap) (garbage : timespec) : res (list timespec * Z * option Z) :=
  sleep_loop ds (mk_ts (Z.quot msec 1000) (Z.rem msec 1000 * 1000000)) garbage.

(** thread.hpp:74-85 GetProcessorNum; the conversion of long to int keeps the low 32 bits *)
Definition GetProcessorNum (sysconf : Z) : Z :=
  if sysconf <? 0 then 0 else let x := sysconf mod 2 ^ 32 in if x <? 2 ^ 31 then x else x - 2 ^ 32.

(** ** thread::Begin *)
(** results of the calls (0: success) and the handle pthread_create stores *)
Record calls := mk_calls { r_init : Z; r_setstack : Z -> Z; r_create : Z; r_handle : Z; r_destroy : Z }.
Inductive ev :=
| AttrInit                              (* attr is initialised *)
| AttrStack (bytes : Z)                 (* its stack size is set *)
| Start (handle entry arg stack : Z)    (* a thread runs entry(arg) with a stack of that size; 0: the default *)
| AttrDestroy.                          (* attr is released *)
(** thread.hpp:105-133; a negative int becomes a size_t of 64 bits.  Result, hdl afterwards, what happened *)
Definition Begin (c : calls) (hdl entry arg stackSize : Z) : bool * Z * list ev :=
  if negb (r_init c =? 0) then (false, hdl, []) else
  let '(ret, stack, tr) :=
    if negb (stackSize =? 0) then
      let sz := stackSize mod 2 ^ 64 in
      let ret := r_setstack c sz in
      if negb (ret =? 0) then (ret, None, []) else (ret, Some sz, [AttrStack sz])
    else (0, Some 0, []) in
  let '(ret, hdl, tr) :=
    match stack with
    | None => (ret, hdl, tr)
    | Some sz => if r_create c =? 0 then (0, r_handle c, tr ++ [Start (r_handle c) entry arg sz]) else (r_create c, hdl, tr)
    end in
  if negb (r_destroy c =? 0) then (false, hdl, AttrInit :: tr) else (ret =? 0, hdl, AttrInit :: tr ++ [AttrDestroy]).
