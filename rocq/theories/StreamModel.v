(** Model of include/cybozu/stream.hpp. *)
Require Import Verif.Common.

(** An input stream that follows the readSome contract: the bytes still to come, and the
    environment's choices of how many bytes each call returns (a socket, pipe or file may return
    less than asked).  An exhausted choice list means "as many as possible". *)
Record istream := mk_is { is_data : list Z; is_sched : list Z }.

(** stream.hpp:40-54, 208-211 readSome(buf, size, is): returns the bytes placed into buf.
    At least one byte is returned when size > 0 and data is left; 0 only at the end or size = 0.
    (The std::istream branch, lines 42-47, is the special case that returns
    min(size, 0x7fffffff, remaining).) *)
Definition readSome (size : Z) (is : istream) : list Z * istream :=
  let most := Z.min size (zlen (is_data is)) in
  let k := match is_sched is with
           | [] => most
           | c :: _ => if most <=? 0 then most else Z.max 1 (Z.min c most)
           end in
  let n := Z.to_nat k in
  (firstn n (is_data is), mk_is (skipn n (is_data is)) (tl (is_sched is))).

(** stream.hpp:226-239 read(bool *pb, buf, size, is): loop until size bytes have been delivered.
    Result: (value of pb, bytes stored into buf, stream). *)
Fixpoint read_loop (fuel : nat) (size : Z) (is : istream) : res (bool * list Z * istream) :=
  if size <=? 0 then Ok (true, [], is) else
  match fuel with
  | O => Fuel
  | S f =>
    let '(got, is') := readSome size is in
    if zlen got =? 0 then Ok (false, [], is') else
    let! (b, more, is2) := read_loop f (size - zlen got) is' in
    Ok (b, got ++ more, is2)
  end.
Definition read_b (size : Z) (is : istream) := read_loop (Z.to_nat size) size is.

(** stream.hpp:243-248 read(buf, size, is), throwing *)
Definition read (size : Z) (is : istream) : res (list Z * istream) :=
  let! (b, got, is') := read_b size is in
  if b then Ok (got, is') else Exn.

(** stream.hpp:252-255 readChar *)
Definition readChar (is : istream) : option Z * istream :=
  match readSome 1 is with
  | (c :: _, is') => (Some c, is')
  | ([], is') => (None, is')
  end.

(** size_t subtraction *)
Definition sub64 (a b : Z) : Z := (a - b) mod 2 ^ 64.

(** stream.hpp:126-140 MemoryInputStream.  [mi_p] is the memory readable at p_. *)
Record mem_in := mk_mi { mi_p : list Z; mi_size : Z; mi_pos : Z }.
Definition mi_readSome (s : mem_in) (size : Z) : res (list Z * mem_in) :=
  let size := if sub64 (mi_size s) (mi_pos s) <? size then sub64 (mi_size s) (mi_pos s) else size in
  if zlen (mi_p s) <? mi_pos s + size then UB
  else Ok (firstn (Z.to_nat size) (skipn (Z.to_nat (mi_pos s)) (mi_p s)),
           mk_mi (mi_p s) (mi_size s) (mi_pos s + size)).

(** stream.hpp:170-186 StringInputStream *)
Record str_in := mk_si { si_str : list Z; si_pos : Z }.
Definition si_readSome (s : str_in) (size : Z) : res (list Z * str_in) :=
  let remainSize := sub64 (zlen (si_str s)) (si_pos s) in
  let size := if remainSize <? size then remainSize else size in
  if zlen (si_str s) <? si_pos s + size then UB
  else Ok (firstn (Z.to_nat size) (skipn (Z.to_nat (si_pos s)) (si_str s)),
           mk_si (si_str s) (si_pos s + size)).

(** stream.hpp:142-167 MemoryOutputStream: [mo_p] is the memory writable at p_. *)
Record mem_out := mk_mo { mo_p : list Z; mo_size : Z; mo_pos : Z }.
(** stream.hpp:148-157 write(bool *pb, buf, size) *)
Definition mo_write_b (s : mem_out) (buf : list Z) : res (bool * mem_out) :=
  let size := zlen buf in
  if sub64 (mo_size s) (mo_pos s) <? size then Ok (false, s) else
  if zlen (mo_p s) <? mo_pos s + size then UB else
  Ok (true, mk_mo (firstn (Z.to_nat (mo_pos s)) (mo_p s) ++ buf ++ skipn (Z.to_nat (mo_pos s + size)) (mo_p s))
                  (mo_size s) (mo_pos s + size)).
(** stream.hpp:159-164 write(buf, size): throws when it does not fit; the object is unchanged then *)
Definition mo_write (s : mem_out) (buf : list Z) : res mem_out :=
  let! (b, s') := mo_write_b s buf in
  if b then Ok s' else Exn.

(** stream.hpp:188-204 StringOutputStream: the referenced string *)
Definition so_write (s buf : list Z) : list Z := s ++ buf.
