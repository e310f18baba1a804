(** Model of include/cybozu/csucvector.hpp: CSucVector (init, get, rank1, rank0, rank, save, load).
    Left out: the counters that only feed put() (freqTbl), and the Bigram statistics: they are read only if the code table has fewer than
    256 entries, which is never the case (lines 472-487: the loop leaves at its first turn).  size_t has 64 bits. *)
Require Import Verif.Common Verif.StreamModel Verif.EndianModel Verif.SerializerModel Verif.SucModel.

(** csucvector.hpp:41-55 Encoding *)
Record enc := mk_e { ev : Z; elen : Z; erk : Z }.
Definition mk_enc (x64 : bool) (v len : Z) : enc := mk_e v len (if len <=? 64 then popcnt64 x64 v else if v =? 0 then 0 else len).
Definition enc_lt (a b : enc) : bool := if elen b <? elen a then true else if elen a <? elen b then false else ev b <? ev a.
(** csucvector.hpp:35-39 getMask *)
Definition getMask (pos : Z) : Z := Z.shiftl 1 pos - 1.
Definition all1 : Z := 18446744073709551615.

(** csucvector.hpp:298-426 the fixed table, copied *)
Definition fixed_tbl : list (Z * Z) := [
  (0, 16384); (18446744073709551615, 8192); (0, 8192); (18446744073709551615, 4096); (0, 4096); (18446744073709551615, 2048); (0, 2048); (18446744073709551615, 1024);
  (0, 1024); (18446744073709551615, 512); (0, 512); (0, 384); (18446744073709551615, 256); (0, 256); (0, 224); (18446744073709551615, 192);
  (18446744073709551615, 128); (0, 128); (0, 96); (0, 85); (18446744073709551615, 64); (0, 64); (9007199254740991, 53); (0, 53);
  (70368744177663, 46); (0, 46); (549755813887, 39); (67108864, 35); (33554432, 35); (16777216, 35); (8388608, 35); (4194304, 35);
  (2097152, 35); (4294967295, 32); (0, 32); (268435455, 28); (134217728, 28); (134217727, 28); (67108864, 28); (0, 28);
  (2097151, 21); (2097023, 21); (1966079, 21); (1835007, 21); (1572864, 21); (1572863, 21); (1048576, 21); (1048575, 21);
  (524288, 21); (262144, 21); (131072, 21); (65536, 21); (32768, 21); (16384, 21); (129, 21); (0, 21);
  (16383, 14); (16382, 14); (16255, 14); (16127, 14); (15871, 14); (15360, 14); (15359, 14); (14336, 14);
  (14335, 14); (12288, 14); (12287, 14); (10240, 14); (9216, 14); (8704, 14); (8448, 14); (8320, 14);
  (8256, 14); (8224, 14); (8208, 14); (8200, 14); (8196, 14); (8194, 14); (8193, 14); (8192, 14);
  (8191, 14); (6144, 14); (5120, 14); (4608, 14); (4352, 14); (4224, 14); (4128, 14); (4112, 14);
  (4104, 14); (4100, 14); (4098, 14); (4097, 14); (4096, 14); (4095, 14); (3072, 14); (2560, 14);
  (2304, 14); (2176, 14); (2056, 14); (2052, 14); (2050, 14); (2049, 14); (2048, 14); (2047, 14);
  (1536, 14); (1280, 14); (1152, 14); (1025, 14); (1024, 14); (768, 14); (640, 14); (520, 14);
  (514, 14); (513, 14); (512, 14); (384, 14); (258, 14); (257, 14); (256, 14); (128, 14);
  (64, 14); (32, 14); (16, 14); (8, 14); (4, 14); (2, 14); (1, 14); (0, 14)].
(** std::sort: equal elements are identical, so any sorting algorithm gives this list *)
Fixpoint enc_insert (e : enc) (l : list enc) : list enc :=
  match l with [] => [e] | x :: r => if enc_lt x e then x :: enc_insert e r else e :: l end.
Definition enc_sort (l : list enc) : list enc := fold_right enc_insert [] l.
Section C.
Variable x64 : bool.
(** csucvector.hpp:292-447 initTable; the table has 256 entries, so it does not throw *)
Definition initTable : list enc :=
  enc_sort (map (fun e => mk_enc x64 (fst e) (snd e)) fixed_tbl ++ map (fun i => mk_enc x64 (Z.of_nat i) 7) (seq 0 128)).

(** csucvector.hpp:57-81 InputStream: peek at bit [at_] = cur_ + offset *)
Definition blockSize (bitSize : Z) : Z := (bitSize + 63) / 64.
Definition peek (blk : list Z) (bitSize at_ : Z) : res Z :=
  let q := at_ / 64 in
  let r := Z.land at_ 63 in
  if blockSize bitSize <=? q then Ok 0
  else if r =? 0 then rd blk q
  else
    let! L := rd blk q in
    let! H := (if q <? blockSize bitSize - 1 then rd blk (q + 1) else Ok 0) in
    Ok (Z.lor (Z.land (Z.shiftr L r) (getMask (64 - r))) (Z.shiftl H (64 - r) mod 2 ^ 64)).
(** csucvector.hpp:260-265: for (j = 1; j < q; j++) *)
Fixpoint same_words (blk : list Z) (bitSize cur target : Z) (n : nat) (j : Z) : res bool :=
  match n with
  | O => Ok true
  | S n' => let! w := peek blk bitSize (cur + j * 64) in if negb (w =? target) then Ok false else same_words blk bitSize cur target n' (j + 1)
  end.
(** csucvector.hpp:252-276: does entry e match at cur; v is peek() *)
Definition entry_found (blk : list Z) (bitSize cur v : Z) (e : enc) : res bool :=
  let len := elen e in
  if 64 <=? len then
    let q := len / 64 in let r := len mod 64 in let target := ev e in
    if v =? target then
      let! found := same_words blk bitSize cur target (Z.to_nat (q - 1)) 1 in
      if found && (0 <? r) then
        let mask := getMask r in
        let! w := peek blk bitSize (cur + q * 64) in
        Ok (Z.land w mask =? Z.land target mask)
      else Ok found
    else Ok false
  else Ok (Z.land v (getMask len) =? ev e).
(** csucvector.hpp:248-290 append: the first matching entry; "NOT HERE" ends the process: Exn *)
Fixpoint find_entry (blk : list Z) (bitSize cur v : Z) (i : Z) (tbl : list enc) : res (Z * enc) :=
  match tbl with
  | [] => Exn
  | e :: r => let! f := entry_found blk bitSize cur v e in if f then Ok (i, e) else find_entry blk bitSize cur v (i + 1) r
  end.
(** csucvector.hpp:241-245: the loop; rk is uint32_t, vec holds uint8_t(i) *)
Fixpoint encode (fuel : nat) (tbl : list enc) (blk : list Z) (bitSize cur : Z) (vec : list Z) (rk : Z) : res (list Z * Z) :=
  match fuel with
  | O => Fuel
  | S f =>
    let! v := peek blk bitSize cur in
    let! (i, e) := find_entry blk bitSize cur v 0 tbl in
    let vec := vec ++ [i mod 256] in
    let rk := (rk + erk e) mod 2 ^ 32 in
    let cur := if cur <? bitSize then cur + elen e else cur in
    if bitSize <=? cur then Ok (vec, rk) else encode f tbl blk bitSize cur vec rk
  end.
(** csucvector.hpp:205-210 Block *)
Record block := mk_b { orgPos : Z; vecPos : Z; brk : Z }.
(** csucvector.hpp:211 *)
Definition skip : Z := 1024.
(** csucvector.hpp:501-504: while (samplingPos < next); all uint32_t *)
Fixpoint sample (fuel : nat) (sp next : Z) (b : block) (acc : list block) : res (Z * list block) :=
  if sp <? next then match fuel with O => Fuel | S f => sample f ((sp + skip) mod 2 ^ 32) next b (acc ++ [b]) end
  else Ok (sp, acc).
(** csucvector.hpp:497-507 *)
Fixpoint blocks (fuel : nat) (tbl : list enc) (vec : list Z) (vp org rk sp : Z) (acc : list block) : res (list block) :=
  match vec with
  | [] => Ok acc
  | v :: r =>
    let! e := rd tbl v in
    let next := (org + elen e) mod 2 ^ 32 in
    let! (sp, acc) := sample fuel sp next (mk_b org (vp mod 2 ^ 32) rk) acc in
    blocks fuel tbl r (vp + 1) next ((rk + erk e) mod 2 ^ 32) sp acc
  end.
(** csucvector.hpp:216-221 CSucVector *)
Record csuc := mk_cs { cbits : Z; ctbl : list enc; cvec : list Z; cblk : list block; crk : Z }.
(** csucvector.hpp:449, 462-466 the default constructor *)
Definition c_empty : csuc := mk_cs 0 [] [] [] 0.
(** csucvector.hpp:467-508 init; the second fuel bounds one sampling loop *)
Definition c_init (f : nat) (c : csuc) (buf : list Z) (bitSize : Z) : res csuc :=
  if 2 ^ 32 <=? bitSize then Exn else
  let tbl := initTable in
  let! (vec, rk) := encode (S (Z.to_nat bitSize)) tbl buf bitSize 0 [] 0 in
  let! blk := blocks f tbl vec 0 0 0 0 (cblk c) in
  Ok (mk_cs bitSize tbl vec blk rk).
(** csucvector.hpp:548-553, 571-577: walk to the code that contains bit pos; the vecPos counter is uint32_t *)
Fixpoint walk (fuel : nat) (c : csuc) (vp pos rk : Z) : res (enc * Z * Z) :=
  match fuel with
  | O => Fuel
  | S f =>
    let! v := rd (cvec c) vp in
    let! e := rd (ctbl c) v in
    if pos <? elen e then Ok (e, pos, rk) else walk f c ((vp + 1) mod 2 ^ 32) (pos - elen e) ((rk + erk e) mod 2 ^ 64)
  end.
(** csucvector.hpp:538-559 get *)
Definition c_get (c : csuc) (pos : Z) : res bool :=
  if cbits c <=? pos then Exn else
  let! b := rd (cblk c) (pos / skip) in
  let! (e, p, _) := walk (S (length (cvec c))) c (vecPos b) ((pos - orgPos b) mod 2 ^ 64) 0 in
  Ok (if 64 <=? p then negb (ev e =? 0) else negb (Z.land (ev e) (Z.shiftl 1 p) =? 0)).
(** csucvector.hpp:560-590 rank1 *)
Definition c_rank1 (c : csuc) (pos : Z) : res Z :=
  if cbits c <=? pos then Ok (crk c) else
  let! b := rd (cblk c) (pos / skip) in
  let! (e, p, rk) := walk (S (length (cvec c))) c (vecPos b) ((pos - orgPos b) mod 2 ^ 64) (brk b) in
  let adj := if 64 <=? p then (if ev e =? 0 then 0 else p) else popcnt64 x64 (Z.land (ev e) (getMask p)) in
  Ok ((rk + adj) mod 2 ^ 64).
(** csucvector.hpp:591-599 rank0, rank *)
Definition c_rank0 (c : csuc) (pos : Z) : res Z := let! r := c_rank1 c pos in Ok ((pos - r) mod 2 ^ 64).
Definition c_rank (c : csuc) (b : bool) (pos : Z) : res Z := if b then c_rank1 c pos else c_rank0 c pos.
End C.

(** the object representations of Encoding (16 bytes) and Block (12 bytes), little endian *)
Definition enc_bytes (e : enc) : list Z := to_le 8 (ev e) ++ to_le 4 (elen e) ++ to_le 4 (erk e).
Definition bytes_enc (l : list Z) : enc := mk_e (of_le (firstn 8 l)) (of_le (firstn 4 (skipn 8 l))) (of_le (skipn 12 l)).
Definition block_bytes (b : block) : list Z := to_le 4 (orgPos b) ++ to_le 4 (vecPos b) ++ to_le 4 (brk b).
Definition bytes_block (l : list Z) : block := mk_b (of_le (firstn 4 l)) (of_le (firstn 4 (skipn 4 l))) (of_le (skipn 8 l)).
Definition u32 : cint := mk_cint 4 false.
(** csucvector.hpp:600-608 save *)
Definition c_save_vec (c : csuc) : res (list Z) :=
  let! a := saveVariableInt true u32 (cbits c) in
  let! b := savePodVec (to_le 1) (cvec c) in
  let! d := savePodVec block_bytes (cblk c) in
  let! e := saveVariableInt true u32 (crk c) in
  let! g := savePodVec enc_bytes (ctbl c) in
  Ok (a ++ b ++ d ++ e ++ g).
(** csucvector.hpp:609-617 load: every member is replaced *)
Definition c_load_vec (is : istream) : res (csuc * istream) :=
  let! (bits, is) := loadVariableInt true u32 is in
  let! (vec, is) := loadPodVec 1 of_le is in
  let! (blk, is) := loadPodVec 12 bytes_block is in
  let! (rk, is) := loadVariableInt true u32 is in
  let! (tbl, is) := loadPodVec 16 bytes_enc is in
  Ok (mk_cs bits tbl vec blk rk, is).
