(** Model of include/cybozu/array.hpp (AlignedArray). The heap is explicit: a list of blocks, block i is
    the memory returned by the i-th allocation, None once it is freed. A pointer is null or a block number.
    Elements are values of a type with a zero; memory fresh from malloc holds arbitrary values
    ([junk], an argument). Alignment is not modelled. *)
Require Import Verif.Common.

Section Array.
Context {T : Type} (zero : T).
(** sizeof(T) *)
Variable szT : Z.

Definition heap := list (option (list T)).
(** array.hpp:74-77 *)
Record arr := Arr { p_ : option nat; size_ : Z; allocSize_ : Z }.

Definition hget (h : heap) (p : option nat) : res (list T) :=
  match p with
  | None => UB
  | Some b => match nth_error h b with Some (Some l) => Ok l | _ => UB end
  end.
Definition hread (h : heap) (p : option nat) (i : Z) : res T := let! l := hget h p in rd l i.
Definition hwrite (h : heap) (p : option nat) (i : Z) (x : T) : res heap :=
  let! l := hget h p in
  let! l := wr l i x in
  match p with None => UB | Some b => Ok (upd h b (Some l)) end.

(** array.hpp:20-29, 78-83: AlignedMalloc(size * sizeof(T)); the product wraps modulo 2^64. The block has room for
    (size * sizeof(T) mod 2^64) / sizeof(T) elements of unknown content. Allocation is taken to succeed. *)
Definition alloc (junk : Z -> T) (h : heap) (size : Z) : heap * option nat :=
  let cap := ((size * szT) mod 2 ^ 64) / szT in
  (h ++ [Some (map (fun i => junk (Z.of_nat i)) (seq 0 (Z.to_nat cap)))], Some (length h)).
(** array.hpp:31-39: free(0) does nothing; freeing twice is undefined *)
Definition AlignedFree (h : heap) (p : option nat) : res heap :=
  match p with
  | None => Ok h
  | Some b => match nth_error h b with Some (Some _) => Ok (upd h b None) | _ => UB end
  end.
(** array.hpp:84-87 *)
Fixpoint copy (n : nat) (i : Z) (h : heap) (dst src : option nat) : res heap :=
  match n with
  | O => Ok h
  | S k => let! x := hread h src i in let! h := hwrite h dst i x in copy k (i + 1) h dst src
  end.
(** array.hpp:88-91; p is p_ + off *)
Fixpoint setZero (n : nat) (i : Z) (h : heap) (p : option nat) (off : Z) : res heap :=
  match n with
  | O => Ok h
  | S k => let! h := hwrite h p (off + i) zero in setZero k (i + 1) h p off
  end.
(** array.hpp:96-103 *)
Definition allocCopy (junk : Z -> T) (h : heap) (a : arr) (allocN : Z) (p : option nat) (copyN : Z) : res (heap * arr) :=
  let (h, q) := alloc junk h allocN in
  let! h := copy (Z.to_nat copyN) 0 h q p in
  let! h := AlignedFree h (p_ a) in
  Ok (h, Arr q (size_ a) allocN).
(** array.hpp:153-166 *)
Definition resize (junk : Z -> T) (h : heap) (a : arr) (size : Z) (doClear : bool) : res (heap * arr) :=
  if size <=? size_ a then Ok (h, Arr (p_ a) size (allocSize_ a))
  else
    let! (h, a) := (if allocSize_ a <? size then allocCopy junk h a size (p_ a) (size_ a) else Ok (h, a)) in
    let! h := (if doClear then setZero (Z.to_nat (size - size_ a)) 0 h (p_ a) (size_ a) else Ok h) in
    Ok (h, Arr (p_ a) size (allocSize_ a)).
(** array.hpp:108-114 *)
Definition construct (junk : Z -> T) (h : heap) (size : Z) (doClear : bool) : res (heap * arr) :=
  resize junk h (Arr None 0 0) size doClear.
(** array.hpp:122-131; *this and rhs may be the same object *)
Definition assign (junk : Z -> T) (h : heap) (a rhs : arr) : res (heap * arr) :=
  let! (h, a') := (if allocSize_ a <? size_ rhs then allocCopy junk h a (size_ rhs) (p_ rhs) (size_ rhs)
                   else let! h := copy (Z.to_nat (size_ rhs)) 0 h (p_ a) (p_ rhs) in Ok (h, a)) in
  Ok (h, Arr (p_ a') (size_ rhs) (allocSize_ a')).
(** array.hpp:115-121 *)
Definition copy_construct (junk : Z -> T) (h : heap) (rhs : arr) : res (heap * arr) := assign junk h (Arr None 0 0) rhs.
(** array.hpp:133-141: the new object, and rhs afterwards *)
Definition move_construct (rhs : arr) : arr * arr := (rhs, Arr None 0 0).
(** array.hpp:167-170 *)
Definition clear (a : arr) : arr := Arr (p_ a) 0 (allocSize_ a).
(** array.hpp:175-180 *)
Definition swap (a b : arr) : arr * arr := (b, a).
(** array.hpp:142-147; distinct objects: *this and rhs afterwards *)
Definition move_assign (a rhs : arr) : arr * arr := let (a, rhs) := swap a rhs in (a, clear rhs).
(** array.hpp:142-147 with &rhs == this *)
Definition move_assign_self (a : arr) : arr := clear a.
(** array.hpp:171-174 *)
Definition destruct_ (h : heap) (a : arr) : res heap := AlignedFree h (p_ a).
(** array.hpp:181-183 *)
Definition get (h : heap) (a : arr) (i : Z) : res T := hread h (p_ a) i.
Definition put (h : heap) (a : arr) (i : Z) (x : T) : res heap := hwrite h (p_ a) i x.
End Array.
