(** Model of include/cybozu/fmindex.hpp: FMindexT<T, isRawData> for T = uint8_t and uint16_t, with SucVectorT<uint32_t, false>
    as its bit vector (CYBOZU_FMINDEX_USE_CSUCVECTOR off).  saisxx (include/sais.hxx) is a parameter that returns its error code
    and the array.  Texts and keys are lists of T.  size_t has 64 bits. *)
Require Import Verif.Common Verif.StreamModel Verif.EndianModel Verif.SerializerModel Verif.BitVecModel Verif.SucModel Verif.WaveletModel Verif.FrequencyModel.

(** fmindex.hpp:58 Frequency<T, uint32_t>: the byte tables for uint8_t, the hash map for uint16_t *)
Inductive fq := Fq8 (v : fvec) | Fq16 (f : @freq Z).

Section Fm.
Variable x64 : bool.
Variable raw : bool.                                  (* isRawData *)
Variable t16 : bool.                                  (* T is uint16_t *)
Variable sais : list Z -> Z -> Z * list Z.            (* saisxx: (returned value, SA) *)
Variable sort8 : (Z -> Z -> bool) -> list Z -> list Z.                       (* std::sort of the two Frequency classes *)
Variable sort16 : list (Z * (Z * Z)) -> list (Z * (Z * Z)).
Variable place : Z * (Z * Z) -> list (Z * (Z * Z)) -> nat.                   (* order of unordered_map *)
Variable junk : list Z.                               (* the uninitialised index table of the byte Frequency *)

Definition tbits : Z := if t16 then 16 else 8.
Definition fq_new : fq := if t16 then Fq16 f_clear else Fq8 v_new.
Definition fq_init (q : fq) (s : list Z) : res fq :=
  match q with
  | Fq8 v => let! v := v_init 32 sort8 v s junk in Ok (Fq8 v)
  | Fq16 f => Ok (Fq16 (f_init Z.eqb 32 sort16 place f s))
  end.
Definition fq_size (q : fq) : Z := match q with Fq8 v => v_size v | Fq16 f => f_size f end.
Definition fq_freq (q : fq) (c : Z) : res Z := match q with Fq8 v => v_getFrequency v c | Fq16 f => Ok (getFrequency Z.eqb f c) end.
Definition fq_index (q : fq) (c : Z) : res Z := match q with Fq8 v => v_getIndex v c | Fq16 f => getIndex Z.eqb f c end.
Definition fq_elem (q : fq) (i : Z) : res Z := match q with Fq8 v => v_getElement false v i | Fq16 f => getElement f i end.

(** fmindex.hpp:54-60 *)
Record fmi := mk_fm { m_cf : list Z; m_wm : wmatrix; m_asa : list Z; m_apos : sucvec; m_fq : fq; m_skip : Z; m_charNum : Z }.
(** fmindex.hpp:129-133 *)
Definition fm_new : fmi := mk_fm [] wm_empty [] sv_empty fq_new 8 0.

(** fmindex.hpp:78-83 the loop over the text *)
Fixpoint raw_count (s : list Z) (tbl : list Z) : res (list Z) :=
  match s with
  | [] => Ok tbl
  | c :: r => if c <=? 0 then Exn else
      let! n := rd tbl c in let! tbl := wr tbl c ((n + 1) mod 2 ^ 32) in raw_count r tbl
  end.
(** fmindex.hpp:85-89 *)
Fixpoint sums (l : list Z) (sum : Z) : list Z := match l with [] => [] | n :: r => sum :: sums r ((sum + n) mod 2 ^ 32) end.
(** fmindex.hpp:94-96 *)
Fixpoint encode_all (q : fq) (s : list Z) : res (list Z) :=
  match s with
  | [] => Ok []
  | c :: r => let! i := fq_index q c in let! l := encode_all q r in Ok ((i + 1) mod 2 ^ tbits :: l)
  end.
(** fmindex.hpp:99-103: for (i = 1; i < charNum_; i++) *)
Fixpoint freq_sums (q : fq) (n : nat) (i sum : Z) : res (list Z) :=
  match n with
  | O => Ok []
  | S n' => let! e := fq_elem q (i - 1) in let! k := fq_freq q e in let! l := freq_sums q n' (i + 1) ((sum + k) mod 2 ^ 32) in Ok (sum :: l)
  end.
(** fmindex.hpp:65-105 initCf: (v, cf, freq, charNum_).  The last element of v is the value-initialised one: 0. *)
Definition initCf (q : fq) (s : list Z) : res (list Z * list Z * fq * Z) :=
  if 2 ^ 32 - 1 <=? zlen s then Exn else
  if raw then
    let charNum := Z.shiftl 1 tbits in
    let! tbl := raw_count s (1 :: repeat 0 (Z.to_nat (charNum - 1))) in
    Ok (s ++ [0], sums tbl 0, q, charNum)
  else
    let! q := fq_init q s in
    let charNum := fq_size q + 1 in
    if Z.shiftl 1 tbits <? charNum then Exn else
    let! l := encode_all q s in
    let! cf := freq_sums q (Z.to_nat (charNum - 1)) 1 1 in
    Ok (l ++ [0], 0 :: cf, q, charNum).
(** fmindex.hpp:106-117 initBwt *)
Fixpoint initBwt (s : list Z) (size : Z) (sa : list Z) : res (list Z) :=
  match sa with
  | [] => Ok []
  | p :: r => let! c := (if 0 <? p then rd s (p - 1) else rd s (size - 1)) in let! l := initBwt s size r in Ok (c :: l)
  end.
(** fmindex.hpp:118-127 getBitLen; x is a size_t, so 64 turns are enough *)
Fixpoint bit_loop (n : nat) (x ret : Z) : Z := match n with O => ret | S n' => if 0 <? x then bit_loop n' (Z.shiftr x 1) (ret + 1) else ret end.
Definition getBitLen (x : Z) : Z := if x =? 0 then 1 else bit_loop 64 x 0.
(** fmindex.hpp:163-168: sampling; alignedSa is appended to *)
Fixpoint aligned (skip : Z) (sa : list Z) (i : Z) (bv : bitvec) (asa : list Z) : res (bitvec * list Z) :=
  match sa with
  | [] => Ok (bv, asa)
  | p :: r =>
    if p mod skip =? 0 then
      let! (bv, thrown) := bv_set 64 bv i in
      if thrown : bool then Exn else aligned skip r (i + 1) bv (asa ++ [p])
    else aligned skip r (i + 1) bv asa
  end.
(** fmindex.hpp:140-181 init *)
Definition fm_init (m : fmi) (s : list Z) (skip : Z) : res fmi :=
  if skip <=? 0 then Exn else
  let! (v, cf, q, charNum) := initCf (m_fq m) s in
  let size := zlen v in
  let (err, sa) := sais v charNum in
  if err =? -1 then Exn else
  let! bwt := initBwt v (zlen sa) sa in
  let! wm := wm_init x64 false false false (m_wm m) bwt (getBitLen charNum) in
  let! bv := bv_resize 64 bv_empty size in
  let! (bv, asa) := aligned skip sa 0 bv (m_asa m) in
  let! apos := sv_init x64 false false (m_apos m) (bv_v bv) (bv_len bv) in
  Ok (mk_fm cf wm asa apos q skip charNum).

(** fmindex.hpp:193-201: the key in the alphabet of the index; None is "return false" *)
Fixpoint convert_key (q : fq) (key : list Z) : res (option (list Z)) :=
  match key with
  | [] => Ok (Some [])
  | c :: r =>
    let! n := fq_freq q c in
    if n =? 0 then Ok None else
    let! i := fq_index q c in
    let! k := convert_key q r in
    Ok (option_map (cons ((i + 1) mod 2 ^ tbits)) k)
  end.
(** fmindex.hpp:205-212: the loop; the key is reversed *)
Fixpoint search (m : fmi) (key : list Z) (b e : Z) : res (Z * Z) :=
  match key with
  | [] => Ok (b, e)
  | c :: r =>
    if b <? e then
      let! cfc := rd (m_cf m) c in
      let! rb := wm_rank x64 false (m_wm m) c b in
      let! re := wm_rank x64 false (m_wm m) c e in
      search m r ((cfc + rb) mod 2 ^ 64) ((cfc + re) mod 2 ^ 64)
    else Ok (b, e)
  end.
(** fmindex.hpp:185-220 getRange; the conversion to Int is left to the caller *)
Definition fm_getRange (m : fmi) (key : list Z) : res (option (Z * Z)) :=
  match key with
  | [] => Ok None
  | _ =>
    let! k := (if raw then Ok (Some key) else convert_key (m_fq m) key) in
    match k with
    | None => Ok None
    | Some k =>
      let! (b, e) := search m (rev k) 0 (wm_size (m_wm m)) in
      Ok (if b <? e then Some (b, e) else None)
    end
  end.
(** one step to the previous character: fmindex.hpp:230-232 and 247-248 *)
Definition step_back (m : fmi) (pos : Z) : res (Z * Z) :=
  let! (c, pos) := wm_get2 x64 false (m_wm m) pos in
  let c := c mod 2 ^ tbits in
  let! o := rd (m_cf m) c in
  Ok (c, (pos + o) mod 2 ^ 64).
(** fmindex.hpp:226-236 convertPosition *)
Fixpoint convert (fuel : nat) (m : fmi) (pos t : Z) : res Z :=
  match fuel with
  | O => Fuel
  | S f =>
    let! b := sv_get (m_apos m) pos in
    if b : bool then
      let! r := sv_rank1 x64 false (m_apos m) pos in
      let! a := rd (m_asa m) r in
      Ok ((t + a) mod 2 ^ 64)
    else let! (_, pos) := step_back m pos in convert f m pos (t + 1)
  end.
Definition fm_convert (f : nat) (m : fmi) (pos : Z) : res Z := convert f m pos 0.
(** fmindex.hpp:241-256 getPrevString: acc is what has been written at the end of str *)
Fixpoint fm_prev (m : fmi) (pos : Z) (len : nat) (acc : list Z) : res (list Z) :=
  match len with
  | O => Ok acc
  | S n =>
    let! (c, pos) := step_back m pos in
    if c =? 0 then Ok acc else
    let! x := (if raw then Ok c else fq_elem (m_fq m) (c - 1)) in
    fm_prev m pos n (x :: acc)
  end.
(** fmindex.hpp:258-267 save; the keys of the uint16_t table are written as two bytes (serializer.hpp:106), its values and skip_
    as integers of variable length, on a little-endian machine with 64-bit size_t *)
Definition s32 : cint := mk_cint 4 true.
Definition u32 : cint := mk_cint 4 false.
Definition fq_save (q : fq) : res (list Z) :=
  match q with
  | Fq8 v => v_save true u64 4 v
  | Fq16 f => f_save Z.eqb place true u64 (codec_pod true 2) (codec_int true u32) f
  end.
Definition fm_save (m : fmi) : res (list Z) :=
  let! a := saveVariableInt true s32 (m_skip m) in
  let! b := savePodVec (to_le 4) (m_cf m) in
  let! c := wm_save false false (m_wm m) in
  let! d := savePodVec (to_le 4) (m_asa m) in
  let! e := sv_save false (m_apos m) in
  let! f := (if raw then Ok [] else fq_save (m_fq m)) in
  Ok (a ++ b ++ c ++ d ++ e ++ f).
(** fmindex.hpp:268-283 load *)
Definition fq_load (q : fq) (is : istream) : res (fq * istream) :=
  match q with
  | Fq8 _ => let! (v, is) := v_load true u64 4 is in Ok (Fq8 v, is)
  | Fq16 f => let! (f, is) := f_load Z.eqb sort16 place true u64 (codec_pod true 2) (codec_int true u32) f is in Ok (Fq16 f, is)
  end.
Definition fm_load (m : fmi) (is : istream) : res (fmi * istream) :=
  let! (skip, is) := loadVariableInt true s32 is in
  let! (cf, is) := loadPodVec 4 of_le is in
  let! (wm, is) := wm_load false false (m_wm m) is in
  let! (asa, is) := loadPodVec 4 of_le is in
  let! (apos, is) := sv_load false (m_apos m) is in
  if raw then Ok (mk_fm cf wm asa apos (m_fq m) skip (Z.shiftl 1 tbits), is)
  else let! (q, is) := fq_load (m_fq m) is in Ok (mk_fm cf wm asa apos q skip (fq_size q), is).
End Fm.
