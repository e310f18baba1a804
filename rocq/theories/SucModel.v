(** Model of include/cybozu/sucvector.hpp, include/cybozu/select8.hpp and the helpers of
    include/cybozu/bit_operation.hpp they use.  size_t is 64 bits wide. *)
Require Import Verif.Common Verif.StreamModel Verif.EndianModel Verif.SerializerModel.

(** ** bit_operation.hpp *)
(** __builtin_popcount / __builtin_popcountll on n-bit words: the number of one bits *)
Fixpoint popn (n : nat) (x : Z) : Z :=
  match n with O => 0 | S n' => Z.b2z (Z.testbit x (Z.of_nat n')) + popn n' x end.
(** bit_operation.hpp:111-121 popcnt<uint32_t> *)
Definition popcnt32 (x : Z) : Z := popn 32 (x mod 2 ^ 32).
(** bit_operation.hpp:123-135 popcnt<uint64_t>; [x64]: the builtin branch, else the two-halves branch *)
Definition popcnt64 (x64 : bool) (x : Z) : Z := if x64 then popn 64 x else popcnt32 x + popcnt32 (Z.shiftr x 32).
(** bit_operation.hpp:101-106 makeBitMask64 (asserts x < 64) *)
Definition makeBitMask64 (x : Z) : Z := Z.shiftl 1 x - 1.
(** bit_operation.hpp:20-99 bsf, bsr.  The builtins: count trailing / leading zeros, undefined at 0. *)
Fixpoint ctz_from (n : nat) (i x : Z) : res Z :=
  match n with O => UB | S n' => if Z.testbit x i then Ok i else ctz_from n' (i + 1) x end.
Fixpoint clz_from (n : nat) (k x : Z) : res Z :=
  match n with O => UB | S n' => if Z.testbit x (Z.of_nat n') then Ok k else clz_from n' (k + 1) x end.
Definition bsf32 (x : Z) : res Z := ctz_from 32 0 (x mod 2 ^ 32).
Definition bsr32 (x : Z) : res Z := let! c := clz_from 32 0 (x mod 2 ^ 32) in Ok (Z.lxor c 31).
Definition bsf64 (x64 : bool) (x : Z) : res Z :=
  if x64 then ctz_from 64 0 x else
  let L := x mod 2 ^ 32 in
  if negb (L =? 0) then bsf32 L else let! r := bsf32 (Z.shiftr x 32) in Ok (r + 32).
Definition bsr64 (x64 : bool) (x : Z) : res Z :=
  if x64 then let! c := clz_from 64 0 x in Ok (Z.lxor c 63) else
  let H := Z.shiftr x 32 in
  if negb (H =? 0) then let! r := bsr32 H in Ok (r + 32) else bsr32 (x mod 2 ^ 32).

(** ** select8.hpp:13-276 the table, copied *)
Definition select8_tbl : list (list Z) := [
  [0;64;64;64;64;64;64;64]; [64;0;64;64;64;64;64;64]; [0;1;64;64;64;64;64;64]; [64;0;1;64;64;64;64;64];
  [0;2;64;64;64;64;64;64]; [64;0;2;64;64;64;64;64]; [0;1;2;64;64;64;64;64]; [64;0;1;2;64;64;64;64];
  [0;3;64;64;64;64;64;64]; [64;0;3;64;64;64;64;64]; [0;1;3;64;64;64;64;64]; [64;0;1;3;64;64;64;64];
  [0;2;3;64;64;64;64;64]; [64;0;2;3;64;64;64;64]; [0;1;2;3;64;64;64;64]; [64;0;1;2;3;64;64;64];
  [0;4;64;64;64;64;64;64]; [64;0;4;64;64;64;64;64]; [0;1;4;64;64;64;64;64]; [64;0;1;4;64;64;64;64];
  [0;2;4;64;64;64;64;64]; [64;0;2;4;64;64;64;64]; [0;1;2;4;64;64;64;64]; [64;0;1;2;4;64;64;64];
  [0;3;4;64;64;64;64;64]; [64;0;3;4;64;64;64;64]; [0;1;3;4;64;64;64;64]; [64;0;1;3;4;64;64;64];
  [0;2;3;4;64;64;64;64]; [64;0;2;3;4;64;64;64]; [0;1;2;3;4;64;64;64]; [64;0;1;2;3;4;64;64];
  [0;5;64;64;64;64;64;64]; [64;0;5;64;64;64;64;64]; [0;1;5;64;64;64;64;64]; [64;0;1;5;64;64;64;64];
  [0;2;5;64;64;64;64;64]; [64;0;2;5;64;64;64;64]; [0;1;2;5;64;64;64;64]; [64;0;1;2;5;64;64;64];
  [0;3;5;64;64;64;64;64]; [64;0;3;5;64;64;64;64]; [0;1;3;5;64;64;64;64]; [64;0;1;3;5;64;64;64];
  [0;2;3;5;64;64;64;64]; [64;0;2;3;5;64;64;64]; [0;1;2;3;5;64;64;64]; [64;0;1;2;3;5;64;64];
  [0;4;5;64;64;64;64;64]; [64;0;4;5;64;64;64;64]; [0;1;4;5;64;64;64;64]; [64;0;1;4;5;64;64;64];
  [0;2;4;5;64;64;64;64]; [64;0;2;4;5;64;64;64]; [0;1;2;4;5;64;64;64]; [64;0;1;2;4;5;64;64];
  [0;3;4;5;64;64;64;64]; [64;0;3;4;5;64;64;64]; [0;1;3;4;5;64;64;64]; [64;0;1;3;4;5;64;64];
  [0;2;3;4;5;64;64;64]; [64;0;2;3;4;5;64;64]; [0;1;2;3;4;5;64;64]; [64;0;1;2;3;4;5;64];
  [0;6;64;64;64;64;64;64]; [64;0;6;64;64;64;64;64]; [0;1;6;64;64;64;64;64]; [64;0;1;6;64;64;64;64];
  [0;2;6;64;64;64;64;64]; [64;0;2;6;64;64;64;64]; [0;1;2;6;64;64;64;64]; [64;0;1;2;6;64;64;64];
  [0;3;6;64;64;64;64;64]; [64;0;3;6;64;64;64;64]; [0;1;3;6;64;64;64;64]; [64;0;1;3;6;64;64;64];
  [0;2;3;6;64;64;64;64]; [64;0;2;3;6;64;64;64]; [0;1;2;3;6;64;64;64]; [64;0;1;2;3;6;64;64];
  [0;4;6;64;64;64;64;64]; [64;0;4;6;64;64;64;64]; [0;1;4;6;64;64;64;64]; [64;0;1;4;6;64;64;64];
  [0;2;4;6;64;64;64;64]; [64;0;2;4;6;64;64;64]; [0;1;2;4;6;64;64;64]; [64;0;1;2;4;6;64;64];
  [0;3;4;6;64;64;64;64]; [64;0;3;4;6;64;64;64]; [0;1;3;4;6;64;64;64]; [64;0;1;3;4;6;64;64];
  [0;2;3;4;6;64;64;64]; [64;0;2;3;4;6;64;64]; [0;1;2;3;4;6;64;64]; [64;0;1;2;3;4;6;64];
  [0;5;6;64;64;64;64;64]; [64;0;5;6;64;64;64;64]; [0;1;5;6;64;64;64;64]; [64;0;1;5;6;64;64;64];
  [0;2;5;6;64;64;64;64]; [64;0;2;5;6;64;64;64]; [0;1;2;5;6;64;64;64]; [64;0;1;2;5;6;64;64];
  [0;3;5;6;64;64;64;64]; [64;0;3;5;6;64;64;64]; [0;1;3;5;6;64;64;64]; [64;0;1;3;5;6;64;64];
  [0;2;3;5;6;64;64;64]; [64;0;2;3;5;6;64;64]; [0;1;2;3;5;6;64;64]; [64;0;1;2;3;5;6;64];
  [0;4;5;6;64;64;64;64]; [64;0;4;5;6;64;64;64]; [0;1;4;5;6;64;64;64]; [64;0;1;4;5;6;64;64];
  [0;2;4;5;6;64;64;64]; [64;0;2;4;5;6;64;64]; [0;1;2;4;5;6;64;64]; [64;0;1;2;4;5;6;64];
  [0;3;4;5;6;64;64;64]; [64;0;3;4;5;6;64;64]; [0;1;3;4;5;6;64;64]; [64;0;1;3;4;5;6;64];
  [0;2;3;4;5;6;64;64]; [64;0;2;3;4;5;6;64]; [0;1;2;3;4;5;6;64]; [64;0;1;2;3;4;5;6];
  [0;7;64;64;64;64;64;64]; [64;0;7;64;64;64;64;64]; [0;1;7;64;64;64;64;64]; [64;0;1;7;64;64;64;64];
  [0;2;7;64;64;64;64;64]; [64;0;2;7;64;64;64;64]; [0;1;2;7;64;64;64;64]; [64;0;1;2;7;64;64;64];
  [0;3;7;64;64;64;64;64]; [64;0;3;7;64;64;64;64]; [0;1;3;7;64;64;64;64]; [64;0;1;3;7;64;64;64];
  [0;2;3;7;64;64;64;64]; [64;0;2;3;7;64;64;64]; [0;1;2;3;7;64;64;64]; [64;0;1;2;3;7;64;64];
  [0;4;7;64;64;64;64;64]; [64;0;4;7;64;64;64;64]; [0;1;4;7;64;64;64;64]; [64;0;1;4;7;64;64;64];
  [0;2;4;7;64;64;64;64]; [64;0;2;4;7;64;64;64]; [0;1;2;4;7;64;64;64]; [64;0;1;2;4;7;64;64];
  [0;3;4;7;64;64;64;64]; [64;0;3;4;7;64;64;64]; [0;1;3;4;7;64;64;64]; [64;0;1;3;4;7;64;64];
  [0;2;3;4;7;64;64;64]; [64;0;2;3;4;7;64;64]; [0;1;2;3;4;7;64;64]; [64;0;1;2;3;4;7;64];
  [0;5;7;64;64;64;64;64]; [64;0;5;7;64;64;64;64]; [0;1;5;7;64;64;64;64]; [64;0;1;5;7;64;64;64];
  [0;2;5;7;64;64;64;64]; [64;0;2;5;7;64;64;64]; [0;1;2;5;7;64;64;64]; [64;0;1;2;5;7;64;64];
  [0;3;5;7;64;64;64;64]; [64;0;3;5;7;64;64;64]; [0;1;3;5;7;64;64;64]; [64;0;1;3;5;7;64;64];
  [0;2;3;5;7;64;64;64]; [64;0;2;3;5;7;64;64]; [0;1;2;3;5;7;64;64]; [64;0;1;2;3;5;7;64];
  [0;4;5;7;64;64;64;64]; [64;0;4;5;7;64;64;64]; [0;1;4;5;7;64;64;64]; [64;0;1;4;5;7;64;64];
  [0;2;4;5;7;64;64;64]; [64;0;2;4;5;7;64;64]; [0;1;2;4;5;7;64;64]; [64;0;1;2;4;5;7;64];
  [0;3;4;5;7;64;64;64]; [64;0;3;4;5;7;64;64]; [0;1;3;4;5;7;64;64]; [64;0;1;3;4;5;7;64];
  [0;2;3;4;5;7;64;64]; [64;0;2;3;4;5;7;64]; [0;1;2;3;4;5;7;64]; [64;0;1;2;3;4;5;7];
  [0;6;7;64;64;64;64;64]; [64;0;6;7;64;64;64;64]; [0;1;6;7;64;64;64;64]; [64;0;1;6;7;64;64;64];
  [0;2;6;7;64;64;64;64]; [64;0;2;6;7;64;64;64]; [0;1;2;6;7;64;64;64]; [64;0;1;2;6;7;64;64];
  [0;3;6;7;64;64;64;64]; [64;0;3;6;7;64;64;64]; [0;1;3;6;7;64;64;64]; [64;0;1;3;6;7;64;64];
  [0;2;3;6;7;64;64;64]; [64;0;2;3;6;7;64;64]; [0;1;2;3;6;7;64;64]; [64;0;1;2;3;6;7;64];
  [0;4;6;7;64;64;64;64]; [64;0;4;6;7;64;64;64]; [0;1;4;6;7;64;64;64]; [64;0;1;4;6;7;64;64];
  [0;2;4;6;7;64;64;64]; [64;0;2;4;6;7;64;64]; [0;1;2;4;6;7;64;64]; [64;0;1;2;4;6;7;64];
  [0;3;4;6;7;64;64;64]; [64;0;3;4;6;7;64;64]; [0;1;3;4;6;7;64;64]; [64;0;1;3;4;6;7;64];
  [0;2;3;4;6;7;64;64]; [64;0;2;3;4;6;7;64]; [0;1;2;3;4;6;7;64]; [64;0;1;2;3;4;6;7];
  [0;5;6;7;64;64;64;64]; [64;0;5;6;7;64;64;64]; [0;1;5;6;7;64;64;64]; [64;0;1;5;6;7;64;64];
  [0;2;5;6;7;64;64;64]; [64;0;2;5;6;7;64;64]; [0;1;2;5;6;7;64;64]; [64;0;1;2;5;6;7;64];
  [0;3;5;6;7;64;64;64]; [64;0;3;5;6;7;64;64]; [0;1;3;5;6;7;64;64]; [64;0;1;3;5;6;7;64];
  [0;2;3;5;6;7;64;64]; [64;0;2;3;5;6;7;64]; [0;1;2;3;5;6;7;64]; [64;0;1;2;3;5;6;7];
  [0;4;5;6;7;64;64;64]; [64;0;4;5;6;7;64;64]; [0;1;4;5;6;7;64;64]; [64;0;1;4;5;6;7;64];
  [0;2;4;5;6;7;64;64]; [64;0;2;4;5;6;7;64]; [0;1;2;4;5;6;7;64]; [64;0;1;2;4;5;6;7];
  [0;3;4;5;6;7;64;64]; [64;0;3;4;5;6;7;64]; [0;1;3;4;5;6;7;64]; [64;0;1;3;4;5;6;7];
  [0;2;3;4;5;6;7;64]; [64;0;2;3;4;5;6;7]; [0;1;2;3;4;5;6;7]; [64;0;1;2;3;4;5;6]].
(** select8.hpp:13-277 *)
Definition select8 (v x : Z) : res Z := let! row := rd select8_tbl v in rd row x.

(** ** sucvector.hpp *)
(** sucvector.hpp:30-33 *)
Definition rank64 (x64 : bool) (v i : Z) : Z := popcnt64 x64 (Z.land v (makeBitMask64 i)).
(** sucvector.hpp:35-39 getBlockNum<uint64_t> *)
Definition getBlockNum (x block : Z) : Z := ((x + block - 1) mod 2 ^ 64) / block.
(** sucvector.hpp:41-68 select64 (NDEBUG: asserts off; the table read is checked) *)
Definition select64 (x64 : bool) (v r : Z) : res Z :=
  if popcnt64 x64 v <? r then Ok 64 else
  let c := popcnt32 (v mod 2 ^ 32) in
  let '(r, pos, v) := if c <? r then (r - c, 32, Z.shiftr v 32) else (r, 0, v) in
  let c := popcnt32 (v mod 2 ^ 16) in
  let '(r, pos, v) := if c <? r then (r - c, pos + 16, Z.shiftr v 16) else (r, pos, v) in
  let c := popcnt32 (v mod 2 ^ 8) in
  let '(r, pos, v) := if c <? r then (r - c, pos + 8, Z.shiftr v 8) else (r, pos, v) in
  if (r =? 8) && (v mod 2 ^ 8 =? 255) then Ok (pos + 7) else
  let! c := select8 (v mod 2 ^ 8) r in
  Ok (pos + c).

(** sucvector.hpp:82-95 struct Block; the union is its 64-bit word, little endian *)
Record block := mk_blk { b_org : list Z; b_a64 : Z }.
Definition blk_zero : block := mk_blk [0; 0; 0; 0] 0.
Definition get_a (x : Z) : Z := x mod 2 ^ 32.
Definition get_b (x i : Z) : Z := (x / 2 ^ (32 + 8 * i)) mod 256.
Definition set_a (x v : Z) : Z := x - get_a x + v.
Definition set_b (x i v : Z) : Z := x - get_b x i * 2 ^ (32 + 8 * i) + v * 2 ^ (32 + 8 * i).

(** sucvector.hpp:96-102 members *)
Record sucvec := mk_sv { sv_bitSize : Z; sv_num0 : Z; sv_num1 : Z; sv_freezed : bool; sv_blk : list block; sv_sel0 : list Z; sv_sel1 : list Z }.
(** sucvector.hpp:219 the default constructor *)
Definition sv_empty : sucvec := mk_sv 0 0 0 false [] [] [].

Definition posUnit : Z := 1024.

Section Cfg.
Variable x64 : bool.          (* which popcnt branch *)
Variable wide : bool.         (* support1TiB: sizeof(size_type) == 8 *)
Variable withSelect : bool.
Definition maxBitSize : Z := if wide then 2 ^ 40 else 2 ^ 32.

(** sucvector.hpp:104-116 rank_a<b> *)
Definition rank_a (b : bool) (blks : list block) (i : Z) : res Z :=
  let! blk := rd blks i in
  let ret := if wide then b_a64 blk mod 2 ^ 40 else get_a (b_a64 blk) in
  Ok (if b then ret else (i * 256 - ret) mod 2 ^ 64).
(** sucvector.hpp:117-125 get_b<b> *)
Definition blk_get_b (b : bool) (blks : list block) (L i : Z) : res Z :=
  let! blk := rd blks L in
  let r := get_b (b_a64 blk) i in
  Ok (if b then r else (64 * i - r) mod 2 ^ 64).

(** sucvector.hpp:143-146 while (rank_a<b>(pos) < r) { pos++; if (pos == blk_.size()) break; }; pos is uint32_t *)
Fixpoint sel_while (fuel : nat) (b : bool) (blks : list block) (pos r : Z) : res Z :=
  match fuel with
  | O => Fuel
  | S f =>
    let! a := rank_a b blks pos in
    if a <? r then
      let pos := (pos + 1) mod 2 ^ 32 in
      if pos =? zlen blks then Ok pos else sel_while f b blks pos r
    else Ok pos
  end.
(** sucvector.hpp:141-148 the loop over i *)
Fixpoint sel_loop (n : nat) (i : Z) (b : bool) (blks : list block) (pos : Z) : res (list Z) :=
  match n with
  | O => Ok []
  | S n' =>
    let! pos := sel_while (S (length blks)) b blks pos (i * posUnit) in
    let! rest := sel_loop n' (i + 1) b blks pos in
    Ok (pos :: rest)
  end.
(** sucvector.hpp:133-149 initSelTblSub *)
Definition initSelTblSub (b : bool) (blks : list block) (num : Z) : res (list Z) :=
  sel_loop (Z.to_nat (getBlockNum num posUnit)) 0 b blks 0.

(** sucvector.hpp:163-177 the inner loop over j *)
Fixpoint init_sub (n : nat) (j : Z) (buf : option (list Z)) (blkNum pos num1 subNum1 : Z) (blk : block) : res (block * Z * Z) :=
  match n with
  | O => Ok (blk, pos, num1)
  | S n' =>
    let! (v, org, pos) :=
      match buf with
      | Some bf =>
        let! (v, pos) := (if pos <? blkNum then let! v := rd bf pos in Ok (v, pos + 1) else Ok (0, pos)) in
        let! org := wr (b_org blk) j v in Ok (v, org, pos)
      | None => let! v := rd (b_org blk) j in Ok (v, b_org blk, pos)
      end in
    let c := popcnt64 x64 v in
    let a64 := if 0 <? j then set_b (b_a64 blk) j (subNum1 mod 256) else b_a64 blk in
    init_sub n' (j + 1) buf blkNum pos (num1 + c) (subNum1 + c) (mk_blk org a64)
  end.
(** sucvector.hpp:154-178 the loop over the blocks *)
Fixpoint init_blocks (blks : list block) (buf : option (list Z)) (blkNum pos num1 : Z) : res (list block * Z) :=
  match blks with
  | [] => Ok ([], num1)
  | blk :: rest =>
    let! a64 := (if wide then Ok (num1 mod 2 ^ 40) else if 0xffffffff <? num1 then Exn else Ok (set_a (b_a64 blk) num1)) in
    let! (blk, pos, num1) := init_sub 4 0 buf blkNum pos num1 0 (mk_blk (b_org blk) a64) in
    let! (rest, num1) := init_blocks rest buf blkNum pos num1 in
    Ok (blk :: rest, num1)
  end.
(** sucvector.hpp:150-183 initBlock, with initSelTbl (126-132) *)
Definition initBlock (sv : sucvec) (buf : option (list Z)) (blkNum : Z) : res sucvec :=
  let! (blks, num1) := init_blocks (sv_blk sv) buf blkNum 0 0 in
  let num0 := (blkNum * 64 - num1) mod 2 ^ 64 in
  if withSelect then
    let! s0 := initSelTblSub false blks num0 in
    let! s1 := initSelTblSub true blks num1 in
    Ok (mk_sv (sv_bitSize sv) num0 num1 true blks s0 s1)
  else Ok (mk_sv (sv_bitSize sv) num0 num1 true blks (sv_sel0 sv) (sv_sel1 sv)).

(** sucvector.hpp:240-255 resize: (object, blkNum).  New blocks are value initialised. *)
Definition resize_blk (l : list block) (n : nat) : list block := firstn n l ++ repeat blk_zero (n - length l).
Definition sv_resize (sv : sucvec) (bitSize : Z) (doClear : bool) : res (sucvec * Z) :=
  if maxBitSize <? bitSize then Exn else
  let blkNum := ((bitSize + 63) mod 2 ^ 64) / 64 in
  let tblNum := Z.to_nat ((blkNum + 3) / 4) in
  let blks := if doClear then repeat blk_zero tblNum else resize_blk (sv_blk sv) tblNum in
  Ok (mk_sv bitSize (sv_num0 sv) (sv_num1 sv) false blks (sv_sel0 sv) (sv_sel1 sv), blkNum).
(** sucvector.hpp:229-233 init *)
Definition sv_init (sv : sucvec) (buf : list Z) (bitSize : Z) : res sucvec :=
  let! (sv, blkNum) := sv_resize sv bitSize false in initBlock sv (Some buf) blkNum.
(** sucvector.hpp:256-265 set *)
Definition sv_set (sv : sucvec) (idx : Z) : res sucvec :=
  if sv_freezed sv then Exn else
  if sv_bitSize sv <=? idx then Exn else
  let q := idx / 256 in let r := idx mod 256 in
  let! blk := rd (sv_blk sv) q in
  let! v := rd (b_org blk) (r / 64) in
  let! org := wr (b_org blk) (r / 64) (Z.lor v (Z.shiftl 1 (r mod 64))) in
  let! blks := wr (sv_blk sv) q (mk_blk org (b_a64 blk)) in
  Ok (mk_sv (sv_bitSize sv) (sv_num0 sv) (sv_num1 sv) (sv_freezed sv) blks (sv_sel0 sv) (sv_sel1 sv)).
(** sucvector.hpp:266-269 ready *)
Definition sv_ready (sv : sucvec) : res sucvec := initBlock sv None (zlen (sv_blk sv) * 4).

(** sucvector.hpp:270-290 rank1 *)
Definition sv_rank1 (sv : sucvec) (pos : Z) : res Z :=
  if sv_bitSize sv <=? pos then Ok (sv_num1 sv) else
  let q := pos / 256 in
  let r := Z.land (pos / 64) 3 in
  let! blk := rd (sv_blk sv) q in
  let ret := if wide then b_a64 blk mod 2 ^ 40 else get_a (b_a64 blk) in
  let ret := if 0 <? r then ret + get_b (b_a64 blk) r else ret in
  let! o := rd (b_org blk) r in
  Ok ((ret + popcnt64 x64 (Z.land o (makeBitMask64 (Z.land pos 63)))) mod 2 ^ 64).
(** sucvector.hpp:291-301 size, rank0, rank *)
Definition sv_size (sv : sucvec) : Z := sv_bitSize sv.
Definition sv_sizeb (sv : sucvec) (b : bool) : Z := if b then sv_num1 sv else sv_num0 sv.
Definition sv_rank0 (sv : sucvec) (pos : Z) : res Z := let! r := sv_rank1 sv pos in Ok ((pos - r) mod 2 ^ 64).
Definition sv_rank (sv : sucvec) (b : bool) (pos : Z) : res Z := if b then sv_rank1 sv pos else sv_rank0 sv pos.
(** sucvector.hpp:302-310 get *)
Definition sv_get (sv : sucvec) (pos : Z) : res bool :=
  if sv_bitSize sv <=? pos then Exn else
  let! blk := rd (sv_blk sv) (pos / 256) in
  let! o := rd (b_org blk) (Z.land (pos / 64) 3) in
  Ok (negb (Z.land o (Z.shiftl 1 (Z.land pos 63)) =? 0)).

(** sucvector.hpp:339-346 the binary search *)
Fixpoint bsearch (fuel : nat) (b : bool) (blks : list block) (L R rank : Z) : res Z :=
  match fuel with
  | O => Fuel
  | S f =>
    if L <? R then
      let M := (L + R) / 2 in
      let! a := rank_a b blks M in
      if a <? rank then bsearch f b blks (M + 1) R rank else bsearch f b blks L M rank
    else Ok L
  end.
(** sucvector.hpp:350-357 while (i < 3) {...} *)
Fixpoint word_while (n : nat) (b : bool) (blks : list block) (L i rank : Z) : res Z :=
  match n with
  | O => Ok i
  | S n' => let! r := blk_get_b b blks L (i + 1) in if rank <=? r then Ok i else word_while n' b blks L (i + 1) rank
  end.
Definition NotFound : Z := 2 ^ 64 - 1.
(** sucvector.hpp:327-368 selectSub *)
Definition sv_select (sv : sucvec) (b : bool) (rank : Z) : res Z :=
  if negb withSelect then Exn else
  if sv_sizeb sv b <=? rank then Ok NotFound else
  let tbl := if b then sv_sel1 sv else sv_sel0 sv in
  let blks := sv_blk sv in
  let pos := rank / posUnit in
  let! L := rd tbl pos in
  let! R := (if zlen tbl - 1 <=? pos then Ok (zlen blks) else rd tbl (pos + 1)) in
  let rank := rank + 1 in
  let! L := bsearch (S (length blks)) b blks L R rank in
  let L := if 0 <? L then L - 1 else L in
  let! a := rank_a b blks L in
  let rank := (rank - a) mod 2 ^ 64 in
  let! i := word_while 3 b blks L 0 rank in
  let! rank := (if 0 <? i then let! r := blk_get_b b blks L i in Ok ((rank - r) mod 2 ^ 64) else Ok rank) in
  let! blk := rd blks L in
  let! v := rd (b_org blk) i in
  let v := if b then v else 2 ^ 64 - 1 - v in
  let! ret := select64 x64 v rank in
  Ok (ret + (L * 256 + i * 64)).
End Cfg.

(** ** save / load *)
Section Save.
Variable withSelect : bool.
Definition u64 : cint := mk_cint 8 false.
(** the object representation of a Block (40 bytes) and of a uint32_t, little endian *)
Definition blk_bytes (b : block) : list Z := concat (map (to_le 8) (b_org b)) ++ to_le 8 (b_a64 b).
Definition bytes_blk (l : list Z) : block :=
  mk_blk [of_le (firstn 8 l); of_le (firstn 8 (skipn 8 l)); of_le (firstn 8 (skipn 16 l)); of_le (firstn 8 (skipn 24 l))] (of_le (firstn 8 (skipn 32 l))).
Fixpoint chunks (n : nat) (sz : nat) (l : list Z) : list (list Z) :=
  match n with O => [] | S n' => firstn sz l :: chunks n' sz (skipn sz l) end.
(** serializer.hpp:226-243 loadPodVec/savePodVec for elements of sz bytes *)
Definition savePodVec {A} (tob : A -> list Z) (v : list A) : res (list Z) :=
  let! h := saveVariableInt true u64 (zlen v) in Ok (h ++ concat (map tob v)).
Definition loadPodVec {A} (sz : nat) (ofb : list Z -> A) (is : istream) : res (list A * istream) :=
  let! (n, is) := loadVariableInt true u64 is in
  if 0 <? n then
    let! (b, is) := read (n * Z.of_nat sz) is in Ok (map ofb (chunks (Z.to_nat n) sz b), is)
  else Ok ([], is).
(** sucvector.hpp:193-204 save *)
Definition sv_save (sv : sucvec) : res (list Z) :=
  let! a := saveVariableInt true u64 (sv_bitSize sv) in
  let! b := saveVariableInt true u64 (sv_num0 sv) in
  let! c := saveVariableInt true u64 (sv_num1 sv) in
  let! d := savePodVec blk_bytes (sv_blk sv) in
  if withSelect then
    let! e := savePodVec (to_le 4) (sv_sel0 sv) in
    let! f := savePodVec (to_le 4) (sv_sel1 sv) in
    Ok (a ++ b ++ c ++ d ++ e ++ f)
  else Ok (a ++ b ++ c ++ d).
(** sucvector.hpp:205-218 load into the object sv (freezed_ is not assigned; initSelTbl() does nothing
    without select) *)
Definition sv_load (sv : sucvec) (is : istream) : res (sucvec * istream) :=
  let! (bitSize, is) := loadVariableInt true u64 is in
  let! (num0, is) := loadVariableInt true u64 is in
  let! (num1, is) := loadVariableInt true u64 is in
  let! (blks, is) := loadPodVec 40 bytes_blk is in
  if withSelect then
    let! (s0, is) := loadPodVec 4 of_le is in
    let! (s1, is) := loadPodVec 4 of_le is in
    Ok (mk_sv bitSize num0 num1 (sv_freezed sv) blks s0 s1, is)
  else Ok (mk_sv bitSize num0 num1 (sv_freezed sv) blks (sv_sel0 sv) (sv_sel1 sv), is).
End Save.
