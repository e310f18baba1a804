(** Model of include/cybozu/wavelet_matrix.hpp, built through BitVector (the default;
    CYBOZU_WAVELET_MATRIX_DIRECT_CONSTRUCT off) with SucVectorT as its bit vector. *)
Require Import Verif.Common Verif.StreamModel Verif.EndianModel Verif.SerializerModel Verif.BitVecModel Verif.SucModel.

(** wavelet_matrix.hpp:62-73 members *)
Record wmatrix := mk_wm { w_maxVal : Z; w_bitLen : Z; w_size : Z; w_svv : list sucvec; w_off : list Z; w_from : list Z; w_fromLt : list Z; w_sel : list (list Z) }.
(** wavelet_matrix.hpp:101-106 constructor *)
Definition wm_empty : wmatrix := mk_wm 1 0 0 [] [] [] [] [].

(** std::vector::resize *)
Definition resize_l {A} (d : A) (l : list A) (n : Z) : list A := firstn (Z.to_nat n) l ++ repeat d (Z.to_nat n - length l).

(** wavelet_matrix.hpp:29-32 getPos *)
Definition getPos (v pos : Z) : bool := negb (Z.land v (Z.shiftl 1 pos) =? 0).
(** wavelet_matrix.hpp:33-42 countZero *)
Definition countZero (inp : list Z) (bitPos : Z) : Z := zlen (filter (fun x => Z.land x (Z.shiftl 1 bitPos) =? 0) inp).

Section Cfg.
Variables x64 wide svSelect : bool.  (* the SucVectorT parameter *)
Variable withSelect : bool.          (* of the wavelet matrix *)

(** wavelet_matrix.hpp:195-207 the loop over j: next and the bit vector *)
Fixpoint wm_fill (n : nat) (j bitPos : Z) (last : bool) (cur next : list Z) (bv : bitvec) (zeroPos onePos : Z) : res (list Z * bitvec) :=
  match n with
  | O => Ok (next, bv)
  | S n' =>
    let! x := rd cur j in
    let b := getPos x bitPos in
    let! bv := (if b then let! (bv, thrown) := bv_set 64 bv j in if thrown : bool then Exn else Ok bv else Ok bv) in
    if last then wm_fill n' (j + 1) bitPos last cur next bv zeroPos onePos
    else if b then let! next := wr next onePos x in wm_fill n' (j + 1) bitPos last cur next bv zeroPos (onePos + 1)
    else let! next := wr next zeroPos x in wm_fill n' (j + 1) bitPos last cur next bv (zeroPos + 1) onePos
  end.
(** wavelet_matrix.hpp:184-214 the loop over i *)
Fixpoint wm_layers (n : nat) (i bitLen size : Z) (off : list Z) (svv : list sucvec) (cur next : list Z) : res (list sucvec) :=
  match n with
  | O => Ok svv
  | S n' =>
    let! bv := bv_resize 64 bv_empty size in
    let! onePos := rd off i in
    let! (next, bv) := wm_fill (Z.to_nat size) 0 (bitLen - 1 - i) (i =? bitLen - 1) cur next bv 0 onePos in
    let! sv := rd svv i in
    let! sv := sv_init x64 wide svSelect sv (bv_v bv) (bv_len bv) in
    let! svv := wr svv i sv in
    wm_layers n' (i + 1) bitLen size off svv next cur
  end.

(** wavelet_matrix.hpp:43-51 initFromTbl; n = valBitLen_ - i *)
Fixpoint initFromTbl (svv : list sucvec) (off : list Z) (n : nat) (tbl : list Z) (pos from i : Z) : res (list Z) :=
  match n with
  | O => wr tbl pos (from mod 2 ^ 32)
  | S n' =>
    let! sv := rd svv i in
    let! r0 := sv_rank x64 wide sv false from in
    let! tbl := initFromTbl svv off n' tbl pos r0 (i + 1) in
    let! r1 := sv_rank x64 wide sv true from in
    let! o := rd off i in
    initFromTbl svv off n' tbl (pos + Z.shiftl 1 (Z.of_nat n')) ((r1 + o) mod 2 ^ 64) (i + 1)
  end.
(** wavelet_matrix.hpp:52-61 initFromLtTbl *)
Fixpoint initFromLtTbl (svv : list sucvec) (off : list Z) (n : nat) (tbl : list Z) (pos from ret i : Z) : res (list Z) :=
  match n with
  | O => wr tbl pos (ret mod 2 ^ 32)
  | S n' =>
    let! sv := rd svv i in
    let! e := sv_rank1 x64 wide sv from in
    let! tbl := initFromLtTbl svv off n' tbl pos ((from - e) mod 2 ^ 64) ret (i + 1) in
    let! o := rd off i in
    initFromLtTbl svv off n' tbl (pos + Z.shiftl 1 (Z.of_nat n')) ((o + e) mod 2 ^ 64) ((ret + from - e) mod 2 ^ 64) (i + 1)
  end.

(** wavelet_matrix.hpp:251-264 rank *)
Fixpoint rank_loop (w : wmatrix) (n : nat) (i val pos : Z) : res Z :=
  match n with
  | O => Ok pos
  | S n' =>
    let! sv := rd (w_svv w) i in
    let! r := sv_rank1 x64 wide sv pos in
    let! pos := (if getPos val (Z.of_nat n') then let! o := rd (w_off w) i in Ok ((o + r) mod 2 ^ 64) else Ok ((pos - r) mod 2 ^ 64)) in
    rank_loop w n' (i + 1) val pos
  end.
Definition wm_rank (w : wmatrix) (val pos : Z) : res Z :=
  let pos := if w_size w <? pos then w_size w else pos in
  let! pos := rank_loop w (Z.to_nat (w_bitLen w)) 0 val pos in
  let! f := rd (w_from w) val in
  Ok ((pos - f) mod 2 ^ 64).
(** wavelet_matrix.hpp:161-166 size() and size(val) *)
Definition wm_size (w : wmatrix) : Z := w_size w.
Definition wm_sizev (w : wmatrix) (val : Z) : res Z := wm_rank w val (w_size w).

(** wavelet_matrix.hpp:76-99 initSelTbl; the first loop: one table for each value *)
Fixpoint sel_alloc (n : nat) (v : Z) (w : wmatrix) (tbl : list (list Z)) : res (list (list Z)) :=
  match n with
  | O => Ok tbl
  | S n' =>
    let! c := wm_sizev w v in
    let! t := rd tbl v in
    let! tbl := wr tbl v (resize_l 0 t (getBlockNum c 256)) in
    sel_alloc n' (v + 1) w tbl
  end.
(** wavelet_matrix.hpp:88-98 the loop over the input *)
Fixpoint sel_fill (n : nat) (pos : Z) (vec iTbl numTbl : list Z) (tbl : list (list Z)) : res (list (list Z)) :=
  match n with
  | O => Ok tbl
  | S n' =>
    let! v := rd vec pos in
    let! i := rd iTbl v in
    let! c := rd numTbl v in
    let c := (c + 1) mod 2 ^ 32 in
    let! numTbl := wr numTbl v c in
    let! t := rd tbl v in
    let! (iTbl, tbl) :=
      (if i * 256 <=? c then
        if i <? zlen t then
          let! t := wr t i ((pos + 1) mod 2 ^ 32) in
          let! tbl := wr tbl v t in
          let! iTbl := wr iTbl v ((i + 1) mod 2 ^ 32) in
          Ok (iTbl, tbl)
        else Ok (iTbl, tbl)
      else Ok (iTbl, tbl)) in
    sel_fill n' (pos + 1) vec iTbl numTbl tbl
  end.
Definition wm_initSelTbl (w : wmatrix) (vec : list Z) : res (list (list Z)) :=
  if negb withSelect then Ok (w_sel w) else
  let n := Z.to_nat (w_maxVal w) in
  let! tbl := sel_alloc n 0 w (resize_l [] (w_sel w) (w_maxVal w)) in
  sel_fill (Z.to_nat (zlen vec mod 2 ^ 32)) 0 vec (repeat 1 n) (repeat 0 n) tbl.

(** wavelet_matrix.hpp:167-223 init.  The tables keep their old entries when resized. *)
Definition wm_init (w : wmatrix) (vec : list Z) (valBitLen : Z) : res wmatrix :=
  if 2 ^ 32 <? zlen vec then Exn else
  if 16 <? valBitLen then Exn else
  let maxVal := Z.shiftl 1 valBitLen in
  let size := zlen vec in
  let off := map (fun i => countZero vec (valBitLen - 1 - Z.of_nat i) mod 2 ^ 32) (seq 0 (Z.to_nat valBitLen)) in
  let! svv := wm_layers (Z.to_nat valBitLen) 0 valBitLen size off (resize_l sv_empty (w_svv w) valBitLen) vec (repeat 0 (Z.to_nat size)) in
  let! from := initFromTbl svv off (Z.to_nat valBitLen) (resize_l 0 (w_from w) maxVal) 0 0 0 in
  let! fromLt := initFromLtTbl svv off (Z.to_nat valBitLen) (resize_l 0 (w_fromLt w) maxVal) 0 0 0 0 in
  let w := mk_wm maxVal valBitLen size svv off from fromLt (w_sel w) in
  let! sel := wm_initSelTbl w vec in
  Ok (mk_wm maxVal valBitLen size svv off from fromLt sel).

(** wavelet_matrix.hpp:224-245 get(pos) *)
Fixpoint get_loop (w : wmatrix) (n : nat) (i ret pos : Z) : res Z :=
  let! sv := rd (w_svv w) i in
  let! b := sv_get sv pos in
  let ret := Z.lor (Z.shiftl ret 1) (Z.b2z b) mod 2 ^ 64 in
  match n with
  | O => Ok ret
  | S n' =>
    let! r := sv_rank1 x64 wide sv pos in
    let! pos := (if b : bool then let! o := rd (w_off w) i in Ok ((o + r) mod 2 ^ 64) else Ok ((pos - r) mod 2 ^ 64)) in
    get_loop w n' (i + 1) ret pos
  end.
(** n = valBitLen_ - 1 - i counts the remaining layers; the condition i == valBitLen_ - 1 is n == 0.
    With valBitLen_ = 0 the first access svv[0] is already out of range. *)
Definition wm_get (w : wmatrix) (pos : Z) : res Z := get_loop w (Z.to_nat (w_bitLen w - 1)) 0 0 pos.

(** wavelet_matrix.hpp:270-286 get(pval, pos): (value, rank); the conversion to T is left to the caller *)
Fixpoint get2_loop (w : wmatrix) (n : nat) (i ret pos : Z) : res (Z * Z) :=
  match n with
  | O => Ok (ret, pos)
  | S n' =>
    let! sv := rd (w_svv w) i in
    let! b := sv_get sv pos in
    let ret := Z.lor (Z.shiftl ret 1) (Z.b2z b) mod 2 ^ 64 in
    let! r := sv_rank1 x64 wide sv pos in
    let! pos := (if b : bool then let! o := rd (w_off w) i in Ok ((o + r) mod 2 ^ 64) else Ok ((pos - r) mod 2 ^ 64)) in
    get2_loop w n' (i + 1) ret pos
  end.
Definition wm_get2 (w : wmatrix) (pos : Z) : res (Z * Z) :=
  let pos := if w_size w <? pos then w_size w else pos in
  let! (ret, pos) := get2_loop w (Z.to_nat (w_bitLen w)) 0 0 pos in
  let! f := rd (w_from w) ret in
  Ok (ret, (pos - f) mod 2 ^ 64).

(** wavelet_matrix.hpp:290-306 rankLt *)
Fixpoint rankLt_loop (w : wmatrix) (n : nat) (i val pos ret : Z) : res Z :=
  match n with
  | O => Ok ret
  | S n' =>
    let! sv := rd (w_svv w) i in
    let! e := sv_rank1 x64 wide sv pos in
    if getPos val (Z.of_nat n') then
      let! o := rd (w_off w) i in
      rankLt_loop w n' (i + 1) val ((o + e) mod 2 ^ 64) ((ret + (pos - e)) mod 2 ^ 64)
    else rankLt_loop w n' (i + 1) val ((pos - e) mod 2 ^ 64) ret
  end.
Definition wm_rankLt (w : wmatrix) (val pos : Z) : res Z :=
  let pos := if w_size w <? pos then w_size w else pos in
  let! ret := rankLt_loop w (Z.to_nat (w_bitLen w)) 0 val pos 0 in
  let! f := rd (w_fromLt w) val in
  Ok ((ret - f) mod 2 ^ 64).

(** wavelet_matrix.hpp:320-327 the binary search *)
Fixpoint wm_bsearch (fuel : nat) (w : wmatrix) (val L R rank : Z) : res Z :=
  match fuel with
  | O => Fuel
  | S f =>
    if L <? R then
      let M := (L + R) / 2 in
      let! r := wm_rank w val M in
      if r <? rank then wm_bsearch f w val (M + 1) R rank else wm_bsearch f w val L M rank
    else Ok L
  end.
(** wavelet_matrix.hpp:329-335 the last loop *)
Fixpoint wm_scan (fuel : nat) (w : wmatrix) (val L rank : Z) : res Z :=
  match fuel with
  | O => Fuel
  | S f =>
    let! r := wm_rank w val L in
    if r =? rank then Ok ((L - 1) mod 2 ^ 64) else
    let L := L + 1 in
    if w_size w <? L then Ok NotFound else wm_scan f w val L rank
  end.
(** wavelet_matrix.hpp:307-336 select *)
Definition wm_select (w : wmatrix) (val rank : Z) : res Z :=
  if negb withSelect then Exn else
  let! tbl := rd (w_sel w) val in
  if zlen tbl <=? rank / 256 then Ok NotFound else
  let pos := rank / 256 in
  let! L := rd tbl pos in
  let! R := (if zlen tbl - 1 <=? pos then Ok (w_size w) else rd tbl (pos + 1)) in
  let rank := (rank + 1) mod 2 ^ 64 in
  let fuel := S (S (Z.to_nat (w_size w))) in
  let! L := wm_bsearch fuel w val L R rank in
  let L := if 0 <? L then L - 1 else L in
  wm_scan fuel w val L rank.
End Cfg.

(** ** save / load *)
Section Save.
Variables svSelect withSelect : bool.
(** wavelet_matrix.hpp:120-139 save; the assert is off, svv[i] is checked *)
Fixpoint save_svv (n : nat) (i : Z) (svv : list sucvec) : res (list Z) :=
  match n with
  | O => Ok []
  | S n' => let! sv := rd svv i in let! a := sv_save svSelect sv in let! b := save_svv n' (i + 1) svv in Ok (a ++ b)
  end.
Fixpoint save_sel (n : nat) (v : Z) (sel : list (list Z)) : res (list Z) :=
  match n with
  | O => Ok []
  | S n' => let! t := rd sel v in let! a := savePodVec (to_le 4) t in let! b := save_sel n' (v + 1) sel in Ok (a ++ b)
  end.
Definition wm_save (w : wmatrix) : res (list Z) :=
  let! a := saveVariableInt true u64 (w_maxVal w) in
  let! b := saveVariableInt true u64 (w_bitLen w) in
  let! c := saveVariableInt true u64 (w_size w) in
  let! d := save_svv (Z.to_nat (w_bitLen w)) 0 (w_svv w) in
  let! e := savePodVec (to_le 4) (w_off w) in
  let! f := savePodVec (to_le 4) (w_from w) in
  let! g := savePodVec (to_le 4) (w_fromLt w) in
  let! h := (if withSelect then save_sel (Z.to_nat (w_maxVal w)) 0 (w_sel w) else Ok []) in
  Ok (a ++ b ++ c ++ d ++ e ++ f ++ g ++ h).
(** wavelet_matrix.hpp:140-160 load into w *)
Fixpoint load_svv (n : nat) (i : Z) (svv : list sucvec) (is : istream) : res (list sucvec * istream) :=
  match n with
  | O => Ok (svv, is)
  | S n' => let! sv := rd svv i in let! (sv, is) := sv_load svSelect sv is in let! svv := wr svv i sv in load_svv n' (i + 1) svv is
  end.
Fixpoint load_sel (n : nat) (v : Z) (sel : list (list Z)) (is : istream) : res (list (list Z) * istream) :=
  match n with
  | O => Ok (sel, is)
  | S n' => let! (t, is) := loadPodVec 4 of_le is in let! sel := wr sel v t in load_sel n' (v + 1) sel is
  end.
Definition wm_load (w : wmatrix) (is : istream) : res (wmatrix * istream) :=
  let! (maxVal, is) := loadVariableInt true u64 is in
  let! (bitLen, is) := loadVariableInt true u64 is in
  let! (size, is) := loadVariableInt true u64 is in
  let! (svv, is) := load_svv (Z.to_nat bitLen) 0 (resize_l sv_empty (w_svv w) bitLen) is in
  let! (off, is) := loadPodVec 4 of_le is in
  let! (from, is) := loadPodVec 4 of_le is in
  let! (fromLt, is) := loadPodVec 4 of_le is in
  if withSelect then
    let! (sel, is) := load_sel (Z.to_nat maxVal) 0 (resize_l [] (w_sel w) maxVal) is in
    Ok (mk_wm maxVal bitLen size svv off from fromLt sel, is)
  else Ok (mk_wm maxVal bitLen size svv off from fromLt (w_sel w), is).
End Save.
