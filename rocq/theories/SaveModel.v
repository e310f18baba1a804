(** Model of the save functions at the level of single calls of cybozu::write on an output stream that may throw.
    The other models give the bytes of a save as one list; here each save is the sequence of its writes, and it stops at the first one
    that throws.  put o b = (true, o') when write(b) returned, (false, o') when it threw, as in ZlibFailModel.v. *)
Require Import Verif.Common Verif.StreamModel Verif.EndianModel Verif.SerializerModel Verif.SerializerProps.
Require Verif.SucModel Verif.CSucModel Verif.WaveletModel Verif.FrequencyModel Verif.FmModel Verif.StrIoModel Verif.SparseModel.

Section Save.
Variable O : Type.
Variable put : O -> list Z -> bool * O.
(** true: the save returned; false: it threw *)
Definition writer : Type := O -> res (bool * O).
(** serializer.hpp:64-68 saveRange, stream.hpp:213-217 write *)
Definition w_put (b : list Z) : writer := fun o => Ok (put o b).
Definition w_skip : writer := fun o => Ok (true, o).
(** one statement after another: an exception leaves the function *)
Definition w_then (w1 w2 : writer) : writer := fun o => let! (b, o) := w1 o in if b then w2 o else Ok (false, o).

Section Host.
Variable little : bool.
Variable size_t : cint.
(** serializer.hpp:78-84 savePod *)
Definition w_pod (n : nat) (x : Z) : writer := w_put (savePod little n x).
(** serializer.hpp:138-161 saveVariableInt *)
Definition w_int (t : cint) (x : Z) : writer :=
  if isRecoverable t (to_s 8) x then
    let u8 := to_u 8 x in
    w_then (if to_u 32 (u8 - 128) <=? 7 then w_pod 1 132 else w_skip) (w_pod 1 u8)
  else if isRecoverable t (to_u 8) x then w_then (w_pod 1 128) (w_pod 1 (to_u 8 x))
  else if isRecoverable t (to_u 16) x || isRecoverable t (to_s 16) x then
    w_then (w_pod 1 (if isRecoverable t (to_u 16) x then 129 else 133)) (w_pod 2 (to_u 16 x))
  else if isRecoverable t (to_u 32) x || isRecoverable t (to_s 32) x then
    w_then (w_pod 1 (if isRecoverable t (to_u 32) x then 130 else 134)) (w_pod 4 (to_u 32 x))
  else if c_size t =? 8 then w_then (w_pod 1 131) (w_pod 8 (to_u 64 x))
  else fun _ => UB.
(** serializer.hpp:237-243, 251-255 savePodVec for std::string *)
Definition w_string (s : list Z) : writer := w_then (w_int size_t (zlen s)) (if zlen s =? 0 then w_skip else w_put s).
(** serializer.hpp:281-290, 304-312, 329-338, 357-366 vector, list, set, map, unordered_map: the size, then each element *)
Fixpoint w_all {A} (f : A -> writer) (l : list A) : writer :=
  match l with [] => w_skip | x :: r => w_then (f x) (w_all f r) end.
Definition w_seq {A} (f : A -> writer) (l : list A) : writer := w_then (w_int size_t (zlen l)) (w_all f l).
Definition w_pair {A B} (f : A -> writer) (g : B -> writer) (p : A * B) : writer := w_then (f (fst p)) (g (snd p)).
(** save of an object of any serializable type *)
Fixpoint w_obj (s : sty) : den s -> writer :=
  match s with
  | SInt t => w_int t
  | SPod n => w_pod n
  | SStr => w_string
  | SSeq e => w_seq (w_obj e)
  | SSet e => w_seq (w_obj e)
  | SMap k v => w_seq (w_pair (w_obj k) (w_obj v))
  end.
(** a user struct: its members one after the other (sample/serializer_smpl.cpp:38-45) *)
Fixpoint w_many (l : list {s : sty & den s}) : writer :=
  match l with [] => w_skip | existT _ s x :: r => w_then (w_obj s x) (w_many r) end.
(** frequency.hpp:136-147, 231-241 Frequency::save, elements and counters by f and g *)
Definition w_freq {E} (f : E -> writer) (g : Z -> writer) (q : FrequencyModel.freq) : writer := w_seq (w_pair f (w_pair g g)) (@FrequencyModel.fm E q).
(** frequency.hpp:107-114 FrequencyVec::save; tables not yet built are read as they are, which is UB here as in FrequencyModel.v *)
Definition w_fvec (k : nat) (v : FrequencyModel.fvec) : writer :=
  w_then (w_int size_t (FrequencyModel.v_size v))
  (match FrequencyModel.v_idx v with
   | None => fun _ => UB
   | Some (c2i, i2c) => w_then (w_put (FrequencyModel.saveRange little k (FrequencyModel.freqTbl v)))
       (w_then (w_put (FrequencyModel.saveRange little 1 c2i)) (w_put (FrequencyModel.saveRange little 1 i2c)))
   end).
End Host.

(** nlp/sparse.hpp:288-296 SparseVector::save: the size, then position and value of each element, values by f.  The iterator reads all
    elements first here; it does not depend on the stream *)
Definition w_sparse {A} (little : bool) (f : A -> writer) (v : SparseModel.sv A) : writer :=
  w_then (w_int little (mk_cint 8 false) (SparseModel.sv_size v)) (fun o =>
    let! (l, _) := SparseModel.iterate v in
    w_all (fun q => w_then (w_int little (mk_cint 8 false) (fst q)) (f (snd q))) l o).
(** string.hpp:1699-1703 save of a cybozu::String *)
Definition w_str32 (little : bool) (s : list Z) : writer :=
  w_then (w_int little StrIoModel.size_t (zlen s)) (if 0 <? zlen s then w_put (StrIoModel.raw little s) else w_skip).
(** serializer.hpp:237-243 savePodVec of elements with the given bytes *)
Definition w_podvec {A} (tob : A -> list Z) (v : list A) : writer :=
  w_then (w_int true SucModel.u64 (zlen v)) (if zlen v =? 0 then w_skip else w_put (concat (map tob v))).
(** sucvector.hpp:193-204 *)
Definition w_suc (withSelect : bool) (sv : SucModel.sucvec) : writer :=
  w_then (w_int true SucModel.u64 (SucModel.sv_bitSize sv)) (
  w_then (w_int true SucModel.u64 (SucModel.sv_num0 sv)) (
  w_then (w_int true SucModel.u64 (SucModel.sv_num1 sv)) (
  w_then (w_podvec SucModel.blk_bytes (SucModel.sv_blk sv)) (
  if withSelect then w_then (w_podvec (to_le 4) (SucModel.sv_sel0 sv)) (w_podvec (to_le 4) (SucModel.sv_sel1 sv)) else w_skip)))).
(** csucvector.hpp:600-608 *)
Definition w_csuc (c : CSucModel.csuc) : writer :=
  w_then (w_int true CSucModel.u32 (CSucModel.cbits c)) (
  w_then (w_podvec (to_le 1) (CSucModel.cvec c)) (
  w_then (w_podvec CSucModel.block_bytes (CSucModel.cblk c)) (
  w_then (w_int true CSucModel.u32 (CSucModel.crk c)) (
  w_podvec CSucModel.enc_bytes (CSucModel.ctbl c))))).
(** wavelet_matrix.hpp:120-139 *)
Fixpoint w_svv (svSelect : bool) (n : nat) (i : Z) (svv : list SucModel.sucvec) : writer :=
  match n with
  | Datatypes.O => w_skip
  | Datatypes.S n' => fun o => let! sv := rd svv i in w_then (w_suc svSelect sv) (w_svv svSelect n' (i + 1) svv) o
  end.
Fixpoint w_sel (n : nat) (v : Z) (sel : list (list Z)) : writer :=
  match n with
  | Datatypes.O => w_skip
  | Datatypes.S n' => fun o => let! t := rd sel v in w_then (w_podvec (to_le 4) t) (w_sel n' (v + 1) sel) o
  end.
Definition w_wm (svSelect withSelect : bool) (w : WaveletModel.wmatrix) : writer :=
  w_then (w_int true SucModel.u64 (WaveletModel.w_maxVal w)) (
  w_then (w_int true SucModel.u64 (WaveletModel.w_bitLen w)) (
  w_then (w_int true SucModel.u64 (WaveletModel.w_size w)) (
  w_then (w_svv svSelect (Z.to_nat (WaveletModel.w_bitLen w)) 0 (WaveletModel.w_svv w)) (
  w_then (w_podvec (to_le 4) (WaveletModel.w_off w)) (
  w_then (w_podvec (to_le 4) (WaveletModel.w_from w)) (
  w_then (w_podvec (to_le 4) (WaveletModel.w_fromLt w)) (
  if withSelect then w_sel (Z.to_nat (WaveletModel.w_maxVal w)) 0 (WaveletModel.w_sel w) else w_skip))))))).
(** fmindex.hpp:258-267 *)
Definition w_fm (raw : bool) (m : FmModel.fmi) : writer :=
  w_then (w_int true FmModel.s32 (FmModel.m_skip m)) (
  w_then (w_podvec (to_le 4) (FmModel.m_cf m)) (
  w_then (w_wm false false (FmModel.m_wm m)) (
  w_then (w_podvec (to_le 4) (FmModel.m_asa m)) (
  w_then (w_suc false (FmModel.m_apos m)) (
  if raw then w_skip else
  match FmModel.m_fq m with
  | FmModel.Fq8 v => w_fvec true SucModel.u64 4 v
  | FmModel.Fq16 f => w_freq true SucModel.u64 (w_pod true 2) (w_int true FmModel.u32) f
  end))))).
End Save.
