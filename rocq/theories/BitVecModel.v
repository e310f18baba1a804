(** Model of include/cybozu/bitvector.hpp.  [w] is sizeof(T) * 8 for the unsigned block type T.
    Narrow T are promoted to int by the C++ operators; every value stored back is converted to T,
    i.e. reduced mod 2^w, and no promoted shift overflows int for w <= 16. *)
Require Import Verif.Common.

Section W.
Variable w : Z.

(** bitvector.hpp:16-21 RoundupBit *)
Definition RoundupBit (bitLen : Z) : Z := ((bitLen + w - 1) mod 2 ^ 64) / w.
(** bitvector.hpp:23-28 GetMaskBit (only called with bitLen < w) *)
Definition GetMaskBit (bitLen : Z) : Z := Z.shiftl 1 bitLen - 1.
(** T(x << s), x >> s *)
Definition shlT (x s : Z) : Z := Z.shiftl x s mod 2 ^ w.
Definition shrT (x s : Z) : Z := Z.shiftr x s.

(** bitvector.hpp:30-37 SetBlockBit *)
Definition SetBlockBit (buf : list Z) (bitLen : Z) : res (list Z) :=
  let q := bitLen / w in let r := bitLen mod w in
  let! x := rd buf q in wr buf q (Z.lor x (Z.shiftl 1 r)).
(** bitvector.hpp:38-45 ResetBlockBit *)
Definition ResetBlockBit (buf : list Z) (bitLen : Z) : res (list Z) :=
  let q := bitLen / w in let r := bitLen mod w in
  let! x := rd buf q in wr buf q (Z.land x (Z.lnot (Z.shiftl 1 r))).
(** bitvector.hpp:46-53 GetBlockBit *)
Definition GetBlockBit (buf : list Z) (bitLen : Z) : res bool :=
  let q := bitLen / w in let r := bitLen mod w in
  let! x := rd buf q in Ok (negb (Z.land x (Z.shiftl 1 r) =? 0)).

(** the source array of a copy: another array, or the destination itself (in place) *)
Definition rsrc (src : option (list Z)) (dst : list Z) (i : Z) : res Z :=
  rd (match src with Some s => s | None => dst end) i.

(** bitvector.hpp:61 for (i = 0; i < q; i++) dst[i] = src[i] *)
Fixpoint copy_loop (n : nat) (i : Z) (dst : list Z) (src : option (list Z)) : res (list Z) :=
  match n with
  | O => Ok dst
  | S n' => let! x := rsrc src dst i in let! dst := wr dst i x in copy_loop n' (i + 1) dst src
  end.
(** bitvector.hpp:55-64 CopyBit *)
Definition CopyBit (dst : list Z) (src : option (list Z)) (bitLen : Z) : res (list Z) :=
  let q := bitLen / w in let r := bitLen mod w in
  let! dst := copy_loop (Z.to_nat q) 0 dst src in
  if r =? 0 then Ok dst else
  let! x := rsrc src dst q in wr dst q (Z.land x (GetMaskBit r)).

(** bitvector.hpp:99-103 and 137-141: for (i = k; i > 0; i--) {...}; returns (dst, prev) *)
Fixpoint shl_loop (k : nat) (shift : Z) (dst : list Z) (src : option (list Z)) (prev : Z) : res (list Z * Z) :=
  match k with
  | O => Ok (dst, prev)
  | S k' =>
    let! v := rsrc src dst (Z.of_nat k') in
    let! dst := wr dst (Z.of_nat k) (Z.lor (shlT prev shift) (shrT v (w - shift))) in
    shl_loop k' shift dst src v
  end.
(** bitvector.hpp:89-91: for (i = n - 2; i > 0; i--) dst[i] = src[i] *)
Fixpoint copy_back_loop (k : nat) (dst : list Z) (src : option (list Z)) : res (list Z) :=
  match k with
  | O => Ok dst
  | S k' => let! x := rsrc src dst (Z.of_nat k) in let! dst := wr dst (Z.of_nat k) x in copy_back_loop k' dst src
  end.
(** bitvector.hpp:73-106 ShiftLeftBit: (dst, returned carry) *)
Definition ShiftLeftBit (dst : list Z) (src : option (list Z)) (bitLen shift ext : Z) : res (list Z * Z) :=
  if bitLen =? 0 then Ok (dst, 0) else
  if w <=? shift then Exn else
  let n := RoundupBit bitLen in
  let r := bitLen mod w in
  let mask := if 0 <? r then GetMaskBit r else 2 ^ w - 1 in
  if shift =? 0 then
    if n =? 1 then
      let! x := rsrc src dst 0 in let! dst := wr dst 0 (Z.lor (Z.land x mask) ext) in Ok (dst, 0)
    else
      let! x := rsrc src dst (n - 1) in
      let! dst := wr dst (n - 1) (Z.land x mask) in
      let! dst := copy_back_loop (Z.to_nat (n - 2)) dst src in
      let! x := rsrc src dst 0 in
      let! dst := wr dst 0 (Z.lor x ext) in Ok (dst, 0)
  else
    let! x := rsrc src dst (n - 1) in
    let prev := Z.land x mask in
    let ret := shrT prev (w - shift) in
    let! (dst, prev) := shl_loop (Z.to_nat (n - 1)) shift dst src prev in
    let! dst := wr dst 0 (Z.lor (shlT prev shift) ext) in
    Ok (dst, ret).

(** bitvector.hpp:119-144 bitvector_local::shiftLeftBit *)
Definition shiftLeftBit (dst src : list Z) (bitLen shift : Z) : res (list Z) :=
  let dstN := RoundupBit (bitLen + shift) in
  let srcN := RoundupBit bitLen in
  let r := bitLen mod w in
  let mask := if negb (r =? 0) then GetMaskBit r else 2 ^ w - 1 in
  let revShift := w - shift in
  let! x := rd src (srcN - 1) in
  let prev := Z.land x mask in
  let! dst := (if srcN <? dstN then wr dst (dstN - 1) (shrT prev revShift) else Ok dst) in
  let! (dst, prev) := shl_loop (Z.to_nat (srcN - 1)) shift dst (Some src) prev in
  let! d0 := rd dst 0 in
  let ext := Z.land d0 (GetMaskBit shift) in
  wr dst 0 (Z.lor (shlT prev shift) ext).

(** bitvector.hpp:173-177: for (i = 0; i < srcN - 2; i++) {...}; returns (dst, prev) *)
Fixpoint shr_loop (n : nat) (i shift : Z) (dst src : list Z) (prev : Z) : res (list Z * Z) :=
  match n with
  | O => Ok (dst, prev)
  | S n' =>
    let! v := rd src (i + 1) in
    let! dst := wr dst i (Z.lor (shrT prev shift) (shlT v (w - shift))) in
    shr_loop n' (i + 1) shift dst src v
  end.
(** bitvector.hpp:155-184 bitvector_local::shiftRightBit *)
Definition shiftRightBit (dst src : list Z) (bitLen shift : Z) : res (list Z) :=
  let dstN := RoundupBit bitLen in
  let srcN := RoundupBit (bitLen + shift) in
  let r := (bitLen + shift) mod w in
  let mask := if negb (r =? 0) then GetMaskBit r else 2 ^ w - 1 in
  if srcN =? 1 then
    let! x := rd src 0 in wr dst 0 (shrT (Z.land x mask) shift)
  else
    let revShift := w - shift in
    let! prev := rd src 0 in
    let! (dst, prev) := shr_loop (Z.to_nat (srcN - 2)) 0 shift dst src prev in
    let! x := rd src (srcN - 1) in
    let v := Z.land x mask in
    let! dst := wr dst (srcN - 2) (Z.lor (shrT prev shift) (shlT v revShift)) in
    if srcN =? dstN then wr dst (srcN - 1) (shrT v shift) else Ok dst.

(** bitvector.hpp:189-195 members of BitVectorT *)
Record bitvec := mk_bv { bv_len : Z; bv_v : list Z }.
Definition bv_empty : bitvec := mk_bv 0 [].

(** std::vector::resize *)
Definition vresize (v : list Z) (n : Z) : list Z := firstn (Z.to_nat n) v ++ repeat 0 (Z.to_nat n - length v).
(** bitvector.hpp:205-214 resize *)
Definition bv_resize (b : bitvec) (bitLen : Z) : res bitvec :=
  let n := RoundupBit bitLen in
  let r := bitLen mod w in
  let v := vresize (bv_v b) n in
  if r =? 0 then Ok (mk_bv bitLen v) else
  let! x := rd v (n - 1) in
  let! v := wr v (n - 1) (Z.land x (GetMaskBit r)) in
  Ok (mk_bv bitLen v).
(** bitvector.hpp:200-204 init: std::copy of v_.size() blocks.  (&v_[0] of an empty vector, here and
    in getBlock, is taken as a harmless address.) *)
Definition bv_init (b : bitvec) (buf : list Z) (bitLen : Z) : res bitvec :=
  let! b := bv_resize b bitLen in
  let! v := copy_loop (length (bv_v b)) 0 (bv_v b) (Some buf) in
  Ok (mk_bv (bv_len b) v).
(** bitvector.hpp:219-223 get *)
Definition bv_get (b : bitvec) (idx : Z) : res bool :=
  if bv_len b <=? idx then Exn else GetBlockBit (bv_v b) idx.
(** Result of a member function that may throw: the object afterwards and whether it threw. *)
Definition sres := res (bitvec * bool).
(** bitvector.hpp:238-248 set(idx), reset(idx); 229-236 set(idx, b) *)
Definition bv_set (b : bitvec) (idx : Z) : sres :=
  if bv_len b <=? idx then Ok (b, true) else let! v := SetBlockBit (bv_v b) idx in Ok (mk_bv (bv_len b) v, false).
Definition bv_reset (b : bitvec) (idx : Z) : sres :=
  if bv_len b <=? idx then Ok (b, true) else let! v := ResetBlockBit (bv_v b) idx in Ok (mk_bv (bv_len b) v, false).
Definition bv_setb (b : bitvec) (idx : Z) (x : bool) : sres := if x then bv_set b idx else bv_reset b idx.
(** bitvector.hpp:224-228 clear *)
Definition bv_clear (b : bitvec) : bitvec := mk_bv 0 [].
(** bitvector.hpp:256-267 append(const T* src, bitLen), src not inside this vector *)
Definition bv_append_buf (b : bitvec) (src : list Z) (bitLen : Z) : res bitvec :=
  if bitLen =? 0 then Ok b else
  let q := bv_len b / w in let r := bv_len b mod w in
  let! b := bv_resize b ((bv_len b + bitLen) mod 2 ^ 64) in
  if zlen (bv_v b) <=? q then UB else
  let head := firstn (Z.to_nat q) (bv_v b) in let dst := skipn (Z.to_nat q) (bv_v b) in
  let! dst := (if r =? 0 then CopyBit dst (Some src) bitLen else shiftLeftBit dst src bitLen r) in
  Ok (mk_bv (bv_len b) (head ++ dst)).
(** bitvector.hpp:271-291 append(uint64_t src, bitLen) *)
Definition bv_append64 (b : bitvec) (src bitLen : Z) : sres :=
  if bitLen =? 0 then Ok (b, false) else
  if w <? bitLen then Ok (b, true) else
  let src := if bitLen <? w then Z.land src (GetMaskBit bitLen) else src in
  let q := bv_len b / w in let r := bv_len b mod w in
  let! b := bv_resize b ((bv_len b + bitLen) mod 2 ^ 64) in
  if r =? 0 then
    let! v := wr (bv_v b) q (src mod 2 ^ w) in Ok (mk_bv (bv_len b) v, false)
  else
    let! x := rd (bv_v b) q in
    let! v := wr (bv_v b) q (Z.lor x ((Z.shiftl src r mod 2 ^ 64) mod 2 ^ w)) in
    let! v := (if w <? r + bitLen then wr v (q + 1) (Z.shiftr src (w - r) mod 2 ^ w) else Ok v) in
    Ok (mk_bv (bv_len b) v, false).
(** bitvector.hpp:295-298 append(const BitVectorT& v), v another vector *)
Definition bv_append (b v : bitvec) : res bitvec := bv_append_buf b (bv_v v) (bv_len v).
(** bitvector.hpp:302-315 extract(T *dst, pos, bitLen) *)
Definition bv_extract_buf (b : bitvec) (dst : list Z) (pos bitLen : Z) : res (list Z) :=
  if bitLen =? 0 then Ok dst else
  if bv_len b <? (pos + bitLen) mod 2 ^ 64 then Exn else
  let q := pos / w in let r := pos mod w in
  if zlen (bv_v b) <=? q then UB else
  let src := skipn (Z.to_nat q) (bv_v b) in
  if r =? 0 then CopyBit dst (Some src) bitLen else shiftRightBit dst src bitLen r.
(** bitvector.hpp:319-323 extract(BitVectorT& dst, pos, bitLen), dst another vector; the first
    component is dst afterwards.  dst is resized before the range check of the inner call. *)
Definition bv_extract_vec (b dst : bitvec) (pos bitLen : Z) : sres :=
  let! dst := bv_resize dst bitLen in
  match bv_extract_buf b (bv_v dst) pos bitLen with
  | Ok v => Ok (mk_bv (bv_len dst) v, false)
  | Exn => Ok (dst, true)
  | UB => UB
  | Fuel => Fuel
  end.
(** bitvector.hpp:327-347 T extract(pos, bitLen) *)
Definition bv_extract (b : bitvec) (pos bitLen : Z) : res Z :=
  if bitLen =? 0 then Ok 0 else
  if (w <? bitLen) || (bv_len b <? (pos + bitLen) mod 2 ^ 64) then Exn else
  let q := pos / w in let r := pos mod w in
  let! v := (if r =? 0 then rd (bv_v b) q
    else if q =? zlen (bv_v b) - 1 then let! x := rd (bv_v b) q in Ok (shrT x r)
    else let! x := rd (bv_v b) q in let! y := rd (bv_v b) (q + 1) in Ok (Z.lor (shrT x r) (shlT y (w - r)))) in
  Ok (if bitLen <? w then Z.land v (GetMaskBit bitLen) else v).
(** bitvector.hpp:348 operator== *)
Fixpoint eq_list (a b : list Z) : bool :=
  match a, b with [], [] => true | x :: a, y :: b => (x =? y) && eq_list a b | _, _ => false end.
Definition bv_eq (a b : bitvec) : bool := eq_list (bv_v a) (bv_v b).
End W.
