(** Model of include/cybozu/xorshift.hpp, include/cybozu/pcg.hpp and include/cybozu/random_generator.hpp. *)
Require Import Verif.Common Verif.EndianModel.

Definition shl32 (x n : Z) : Z := Z.shiftl x n mod 2 ^ 32.
Definition shl64 (x n : Z) : Z := Z.shiftl x n mod 2 ^ 64.

(** xorshift.hpp:33-35, 43-45: copy the bytes of the word (host order; [little] is the host) *)
Definition word_bytes (little : bool) (k : nat) (u : Z) : list Z := if little then to_le k u else rev (to_le k u).
(** xorshift.hpp:33-35: for (i = 0; i < cnt; i++) dst[i] = ua.a[i], dst at offset off of the buffer *)
Fixpoint copy_bytes (cnt : nat) (i : Z) (a : list Z) (buf : list Z) (off : Z) : res (list Z) :=
  match cnt with
  | O => Ok buf
  | S c => let! x := rd a i in let! buf := wr buf (off + i) x in copy_bytes c (i + 1) a buf off
  end.
(** xorshift.hpp:29-38: the while loop *)
Fixpoint read_while {S} (f : S -> Z * S) (little : bool) (k : nat) (fuel : nat) (g : S) (buf : list Z) (off n : Z) : res (S * list Z * Z * Z) :=
  match fuel with
  | O => Fuel
  | Datatypes.S fu =>
    if Z.of_nat k <=? n then
      let '(u, g) := f g in
      let! buf := copy_bytes k 0 (word_bytes little k u) buf off in
      read_while f little k fu g buf (off + Z.of_nat k) (n - Z.of_nat k)
    else Ok (g, buf, off, n)
  end.
(** xorshift.hpp:18-47 *)
Definition read_local {S} (f : S -> Z * S) (little : bool) (k : nat) (g : S) (buf : list Z) (n : Z) : res (S * list Z) :=
  let! (g, buf, off, n) := read_while f little k (Datatypes.S (Z.to_nat n)) g buf 0 n in
  if 0 <? n then
    let '(u, g) := f g in
    let! buf := copy_bytes (Z.to_nat n) 0 (word_bytes little k u) buf off in
    Ok (g, buf)
  else Ok (g, buf).

(** xorshift.hpp:52 *)
Record xs := XS { x_ : Z; y_ : Z; z_ : Z; w_ : Z }.
(** xorshift.hpp:54-64 *)
Definition xs_init (x y z w : Z) : xs :=
  XS (if x =? 0 then 123456789 else x) (if y =? 0 then 362436069 else y)
     (if z =? 0 then 521288629 else z) (if w =? 0 then 88675123 else w).
(** xorshift.hpp:65-70 *)
Definition xs_get32 (s : xs) : Z * xs :=
  let t := Z.lxor (x_ s) (shl32 (x_ s) 11) in
  let w := Z.lxor (Z.lxor (w_ s) (Z.shiftr (w_ s) 19)) (Z.lxor t (Z.shiftr t 8)) in
  (w, XS (y_ s) (z_ s) (w_ s) w).
(** xorshift.hpp:72-77, pcg.hpp:45-50 *)
Definition get64_of {S} (f : S -> Z * S) (s : S) : Z * S :=
  let '(a, s) := f s in
  let '(b, s) := f s in
  (Z.lor (shl64 a 32) b, s).
(** xorshift.hpp:78-83: read(bool*, T *p, size_t n), sz = sizeof(T); the product wraps *)
Definition xs_read (little : bool) (s : xs) (sz : Z) (buf : list Z) (n : Z) := read_local xs_get32 little 4 s buf ((n * sz) mod 2 ^ 64).

(** xorshift.hpp:96 *)
Record xp := XP { s0_ : Z; s1_ : Z }.
(** xorshift.hpp:114-122 *)
Definition xp_get64 (s : xp) : Z * xp :=
  let s1 := s0_ s in
  let s0 := s1_ s in
  let s1 := Z.lxor s1 (shl64 s1 23) in
  let n1 := Z.lxor (Z.lxor (Z.lxor s1 s0) (Z.shiftr s1 18)) (Z.shiftr s0 5) in
  ((n1 + s0) mod 2 ^ 64, XP s0 n1).
(** xorshift.hpp:109-112, 158-161 *)
Definition low32_of {S} (f : S -> Z * S) (s : S) : Z * S := let '(x, s) := f s in (x mod 2 ^ 32, s).
(** xorshift.hpp:123-128 *)
Definition xp_read (little : bool) (s : xp) (sz : Z) (buf : list Z) (n : Z) := read_local xp_get64 little 8 s buf ((n * sz) mod 2 ^ 64).

(** xorshift.hpp:144-147 *)
Definition xo_rotl (x k : Z) : Z := Z.lor (shl64 x k) (Z.shiftr x (64 - k)).
(** xorshift.hpp:163-172 *)
Definition xo_get64 (s : xp) : Z * xp :=
  let s0 := s0_ s in
  let s1 := s1_ s in
  let result := (s0 + s1) mod 2 ^ 64 in
  let s1 := Z.lxor s1 s0 in
  (result, XP (Z.lxor (Z.lxor (xo_rotl s0 55) s1) (shl64 s1 14)) (xo_rotl s1 36)).
(** xorshift.hpp:173-178 *)
Definition xo_read (little : bool) (s : xp) (sz : Z) (buf : list Z) (n : Z) := read_local xo_get64 little 8 s buf ((n * sz) mod 2 ^ 64).

(** pcg.hpp:18-28: the Intel instruction rorl (count masked to 5 bits, rotates), and the portable branch *)
Definition pcg_rotr (intel : bool) (x r : Z) : Z :=
  if intel then
    let c := r mod 32 in (x / 2 ^ c + x * 2 ^ (32 - c)) mod 2 ^ 32
  else Z.lor (Z.shiftr x r) (shl32 x (Z.land ((- r) mod 2 ^ 32) 31)).
(** pcg.hpp:34-41 *)
Definition pcg_get32 (intel : bool) (state : Z) : Z * Z :=
  let old := state in
  let state := (old * 6364136223846793005 + 109) mod 2 ^ 64 in
  let x := Z.shiftr (Z.lxor (Z.shiftr old 18) old) 27 mod 2 ^ 32 in
  let r := Z.shiftr old 59 mod 2 ^ 32 in
  (pcg_rotr intel x r, state).
(** pcg.hpp:50-57: one byte per 32-bit output; size = sizeof(T) * n *)
Fixpoint pcg_bytes (intel : bool) (size : nat) (i : Z) (st : Z) (buf : list Z) : res (Z * list Z) :=
  match size with
  | O => Ok (st, buf)
  | S k => let '(u, st) := pcg_get32 intel st in
           let! buf := wr buf i (u mod 256) in
           pcg_bytes intel k (i + 1) st buf
  end.
(** pcg.hpp:58-69: element loops of the uint32_t and uint64_t overloads *)
Fixpoint pcg_words (f : Z -> Z * Z) (n : nat) (i : Z) (st : Z) (x : list Z) : res (Z * list Z) :=
  match n with
  | O => Ok (st, x)
  | S k => let '(u, st) := f st in let! x := wr x i u in pcg_words f k (i + 1) st x
  end.

(** random_generator.hpp:88-97, non-Windows: [data] is what the device delivers to this fread if asked for
    enough; fread stores min(count, |data|) bytes, and storing beyond the buffer is undefined.
    (int)byteSize wraps to 32 bits signed and is converted back to size_t *)
Definition int_to_size (x : Z) : Z := let c := x mod 2 ^ 32 in if c <? 2 ^ 31 then c else c - 2 ^ 32 + 2 ^ 64.
Definition rg_read (opened : bool) (data buf : list Z) (byteSize : Z) : res (bool * list Z) :=
  if opened then
    let count := int_to_size byteSize in
    let got := firstn (Z.to_nat (Z.min count (zlen data))) data in
    if zlen buf <? zlen got then UB
    else Ok (zlen got =? byteSize, got ++ skipn (length got) buf)
  else Ok (false, buf).

(** std::swap(v[i], v[r]) *)
Definition swap_at {A} (v : list A) (i r : Z) : res (list A) :=
  let! a := rd v i in
  let! b := rd v r in
  let! v := wr v i b in
  wr v r a.
(** random_generator.hpp:131-135: for (i = 0; i < n - 1; i++); [k] iterations left *)
Fixpoint shuffle_loop {A S} (get64 : S -> Z * S) (k : nat) (i n : Z) (v : list A) (rg : S) : res (list A * S) :=
  match k with
  | O => Ok (v, rg)
  | Datatypes.S k' =>
    let '(u, rg) := get64 rg in
    let r := i + u mod (n - i) in
    let! v := swap_at v i r in
    shuffle_loop get64 k' (i + 1) n v rg
  end.
(** random_generator.hpp:127-143 *)
Definition shuffle {A S} (get64 : S -> Z * S) (v : list A) (rg : S) : res (list A * S) :=
  let n := zlen v in
  if n <=? 1 then Ok (v, rg) else shuffle_loop get64 (Z.to_nat (n - 1)) 0 n v rg.
