(** Model of sample/csucvector_smpl.cpp: a file is mapped, its bits are put into a CSucVector, which is saved to a stringstream and loaded
    from it; every bit is then read from the loaded one and put into a BitVector, whose blocks are compared with the file. *)
Require Import Verif.Common Verif.StreamModel Verif.EndianModel Verif.BitVecModel Verif.CSucModel.

(** the mapped file as 64-bit little endian words.  The bytes behind the end of the file up to the end of its page are 0 (mmap); a page is
    a multiple of 8 bytes, so they are all there *)
Fixpoint words_of (n : nat) (data : list Z) : list Z :=
  match n with O => [] | S n => of_le (firstn 8 data) :: words_of n (skipn 8 data) end.
Definition mapped_words (data : list Z) : list Z := words_of (Z.to_nat ((zlen data + 7) / 8)) data.

(** csucvector_smpl.cpp:21-23: if (cv.get(i)) bv.set(i); *)
Fixpoint read_bits (n : nat) (i : Z) (cv : csuc) (bv : bitvec) : res bitvec :=
  match n with
  | O => Ok bv
  | S n =>
    let! b := c_get cv i in
    let! bv := (if b then let! (bv, threw) := bv_set 64 bv i in (if threw : bool then Exn else Ok bv) else Ok bv) in
    read_bits n (i + 1) cv bv
  end.
(** csucvector_smpl.cpp:25-30: the first block that differs *)
Fixpoint compare_blocks (n : nat) (i : Z) (p blk : list Z) : res (option Z) :=
  match n with
  | O => Ok None
  | S n => let! a := rd p i in let! b := rd blk i in if a =? b then compare_blocks n (i + 1) p blk else Ok (Some i)
  end.
(** csucvector_smpl.cpp:5-31 test and the end of main: the status of the process and the bits read back.  An exception is not caught: the
    process is aborted (Exn).  x64, f: as in CSucModel; sched: how the stringstream hands over its bytes.  The line with the rate is
    not modelled *)
Definition csucvector_smpl (x64 : bool) (f : nat) (sched : list Z) (data : list Z) : res (Z * bitvec) :=
  let blk := mapped_words data in
  let! cv2 := c_init x64 f c_empty blk (zlen data * 8) in
  let! ss := c_save_vec cv2 in
  let! (cv, _) := c_load_vec (mk_is ss sched) in
  let! bv := bv_resize 64 bv_empty (zlen data * 8) in
  let! bv := read_bits (Z.to_nat (bv_len bv)) 0 cv bv in
  let! d := compare_blocks (length (bv_v bv)) 0 (bv_v bv) blk in
  Ok (match d with None => 0 | Some _ => 1 end, bv).
