(** Model of the stack allocation macros of include/cybozu/inttype.hpp. The address that alloca returns for a size is a parameter. *)
Require Import Verif.Common.

(** inttype.hpp:65, the argument of CYBOZU_ALLOCA, in size_t: the bytes allocated *)
Definition block_size (x align : Z) : Z := (x + align - 1) mod 2 ^ 64.
(** ~(size_t(align) - 1) *)
Definition mask (align : Z) : Z := 2 ^ 64 - 1 - ((align - 1) mod 2 ^ 64).
(** inttype.hpp:65 CYBOZU_ALIGNED_ALLOCA(x, align); [alloca n] is the address of a block of n bytes (inttype.hpp:63) *)
Definition aligned_alloca (alloca : Z -> Z) (x align : Z) : Z := Z.land (alloca (block_size x align)) (mask align).
