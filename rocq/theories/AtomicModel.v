(** Model of include/cybozu/atomic.hpp: AtomicAdd, AtomicCompareExchange, AtomicExchange on objects of 4 or 8 bytes.
    The builtins __sync_fetch_and_add, __sync_val_compare_and_swap and __sync_lock_test_and_set are single steps of a sequentially
    consistent memory (the acquire-only ordering of the last one with respect to other objects is not modelled). *)
Require Import Verif.Common.
Import ListNotations.
Local Open Scope Z_scope.

Section Width.
(** w: the bits of T; values are the residues 0 .. 2^w-1, also for signed T and pointers *)
Variable w : Z.
(** atomic.hpp:33-41, 66-76, 110-114: new value of *p, returned value *)
Definition AtomicAdd (p y : Z) : Z * Z := ((p + y) mod 2 ^ w, p).
(** atomic.hpp:43-51, 78-86, 121-125 *)
Definition AtomicCompareExchange (p newValue oldValue : Z) : Z * Z := ((if p =? oldValue then newValue else p), p).
(** atomic.hpp:53-61, 88-97, 132-136 *)
Definition AtomicExchange (p newValue : Z) : Z * Z := (newValue, p).

Inductive op := Add (y : Z) | Cas (newValue oldValue : Z) | Xchg (newValue : Z).
Definition apply (o : op) (p : Z) : Z * Z :=
  match o with
  | Add y => AtomicAdd p y
  | Cas n o => AtomicCompareExchange p n o
  | Xchg n => AtomicExchange p n
  end.
(** a call: thread, object, operation; done: with the returned value *)
Record call := mk_call { thread : nat; object : nat; what : op }.
Record done := mk_done { did : call; returned : Z }.
(** any number of threads; the calls in the order in which the memory performs them.  UB: no such object *)
Fixpoint run (mem : list Z) (cs : list call) : res (list done * list Z) :=
  match cs with
  | [] => Ok ([], mem)
  | c :: cs =>
      match nth_error mem (object c) with
      | None => UB
      | Some p =>
          let (v, r) := apply (what c) p in
          let! (ds, mem) := run (upd mem (object c) v) cs in
          Ok (mk_done c r :: ds, mem)
      end
  end.
End Width.
