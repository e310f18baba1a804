(** Model of several threads that iterate over one const SparseVector of include/cybozu/nlp/sparse.hpp at the same time.  The object is
    shared; begin() of a vector with CompressedPositionTbl writes to mutable members, everything else only reads. *)
Require Import Verif.Common Verif.SparseModel.

Section Threads.
Context {A : Type}.
(** where a thread is in  for (const_iterator i = v.begin(), ie = v.end(); i != ie; ++i) { use(i->pos(), i->val()); }  with the pairs
    read so far, the last one first *)
Inductive tstate : Type :=
| TStart                                          (* before sparse.hpp:89, or in front of 23-26 *)
| TPush                                           (* between 89 and 90: addDummy_ was false *)
| TFlag                                           (* between 90 and 91 *)
| TSetup                                          (* in front of 93 *)
| TTest (c : curr) (acc : list (Z * A))           (* in front of i != ie, then i->pos() *)
| TVal (c : curr) (p : Z) (acc : list (Z * A))    (* in front of i->val() *)
| TNext (c : curr) (acc : list (Z * A))           (* in front of ++i *)
| TDone (l : list (Z * A))
| TBad.                                           (* a read outside of a vector *)
(** one step of one thread.  sparse.hpp:84-94 Curr, 157-176 setup, 187-213 ConstIterator.  A step of setup reads the up to four bytes at
    once, and push_back of std::vector is one step: two of them at once are worse than anything shown here *)
Definition tstep (v : sv A) (s : tstate) : sv A * tstate :=
  match s with
  | TStart => match tab v with Plain _ => (v, TTest (mk_curr 0 0 0) []) | Packed _ _ dummy => (v, if dummy then TSetup else TPush) end
  | TPush => match tab v with Plain _ => (v, TBad) | Packed b l d => (mk_sv (Packed (b ++ [0]) l d) (vec v), TFlag) end
  | TFlag => match tab v with Plain _ => (v, TBad) | Packed b l _ => (mk_sv (Packed b l true) (vec v), TSetup) end
  | TSetup => match tab v with Plain _ => (v, TBad) | Packed b _ _ => match setup b (mk_curr 0 0 0) with Ok c => (v, TTest c []) | _ => (v, TBad) end end
  | TTest c acc => if vecPos c =? it_end v then (v, TDone (rev acc)) else match it_pos v c with Ok p => (v, TVal c p acc) | _ => (v, TBad) end
  | TVal c p acc => match it_val v c with Ok x => (v, TNext c ((p, x) :: acc)) | _ => (v, TBad) end
  | TNext c acc => match it_next v c with Ok c => (v, TTest c acc) | _ => (v, TBad) end
  | TDone _ | TBad => (v, s)
  end.
(** the threads run in the order of the schedule, one step each time; numbers that are no thread are skipped *)
Fixpoint trun (v : sv A) (ts : list tstate) (sched : list nat) : sv A * list tstate :=
  match sched with
  | [] => (v, ts)
  | i :: sched =>
    match nth_error ts i with
    | Some s => let '(v, s) := tstep v s in trun v (upd ts i s) sched
    | None => trun v ts sched
    end
  end.
End Threads.
Arguments tstate : clear implicits.
