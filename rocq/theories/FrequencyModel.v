(** Model of include/cybozu/frequency.hpp.  Int is an unsigned type of w bits.  std::sort is a parameter (it may order equal
    elements in any way); the iteration order of unordered_map is the order of the list, chosen by [place]. *)
Require Import Verif.Common Verif.StreamModel Verif.SerializerModel.

(** ** Frequency<Element, Int> *)
Section Freq.
Context {E : Type}.
Variables (eqb gtb : E -> E -> bool) (w : Z).
Variable sort : list (E * (Z * Z)) -> list (E * (Z * Z)).
Variable place : E * (Z * Z) -> list (E * (Z * Z)) -> nat.

(** frequency.hpp:132-135, 149-152, 161-162: m_ maps an element to (freq, idx); idx2ref_ is a vector of iterators, kept as their keys.
    Inserting a new element may rehash and so invalidate the iterators: [stale]. *)
Record freq := mk_freq { fm : list (E * (Z * Z)); refs : list E; stale : bool }.
(** frequency.hpp:173, 180-184 *)
Definition f_clear : freq := mk_freq [] [] false.
(** frequency.hpp:153-160 greater *)
Definition greater (a b : E * (Z * Z)) : bool :=
  if fst (snd a) >? fst (snd b) then true
  else if fst (snd a) <? fst (snd b) then false
  else gtb (fst a) (fst b).
(** frequency.hpp:163-171 initIdx2Ref *)
Definition initIdx2Ref (f : freq) : freq := mk_freq (fm f) (map fst (sort (fm f))) false.
(** std::unordered_map::find *)
Definition find_e (e : E) (m : list (E * (Z * Z))) : option (Z * Z) := option_map snd (find (fun x => eqb e (fst x)) m).
Fixpoint update (e : E) (g : Z * Z -> Z * Z) (m : list (E * (Z * Z))) : list (E * (Z * Z)) :=
  match m with
  | [] => []
  | x :: r => if eqb e (fst x) then (fst x, g (snd x)) :: r else x :: update e g r
  end.
(** frequency.hpp:194-197 append: m_[e].freq++ *)
Definition f_append (f : freq) (e : E) : freq :=
  match find_e e (fm f) with
  | Some _ => mk_freq (update e (fun v => ((fst v + 1) mod 2 ^ w, snd v)) (fm f)) (refs f) (stale f)
  | None => mk_freq (insert_at (place (e, (1 mod 2 ^ w, 0)) (fm f)) (e, (1 mod 2 ^ w, 0)) (fm f)) (refs f) true
  end.
(** frequency.hpp:198-204 ready *)
Fixpoint set_idx (l : list E) (i : Z) (m : list (E * (Z * Z))) : list (E * (Z * Z)) :=
  match l with
  | [] => m
  | e :: r => set_idx r (i + 1) (update e (fun v => (fst v, i mod 2 ^ w)) m)
  end.
Definition f_ready (f : freq) : freq :=
  let f := initIdx2Ref f in mk_freq (set_idx (refs f) 0 (fm f)) (refs f) (stale f).
(** frequency.hpp:185-193 init *)
Definition f_init (f : freq) (s : list E) : freq := f_ready (fold_left f_append s f).
(** frequency.hpp:208-212 *)
Definition getFrequency (f : freq) (e : E) : Z := match find_e e (fm f) with Some v => fst v | None => 0 end.
(** frequency.hpp:216-221 *)
Definition getIndex (f : freq) (e : E) : res Z := match find_e e (fm f) with Some v => Ok (snd v) | None => Exn end.
(** frequency.hpp:225-229; dereferencing an iterator after a rehash is UB *)
Definition getElement (f : freq) (i : Z) : res E :=
  if zlen (refs f) <=? i then Exn else if stale f then UB else rd (refs f) i.
(** frequency.hpp:230 *)
Definition f_size (f : freq) : Z := zlen (refs f).

(** frequency.hpp:136-147 FreqIdx::load and save, 231-241 load (m_ is not cleared) and save *)
Section Stream.
Variables (little : bool) (size_t : cint) (ce : codec E) (ci : codec Z).
Definition f_codec : codec (list (E * (Z * Z))) := codec_umap little size_t eqb place ce (codec_pair ci ci).
Definition f_save (f : freq) : res (list Z) := c_save f_codec (fm f).
Definition f_load (f : freq) (is : istream) : res (freq * istream) :=
  let! (m, is) := c_load f_codec (fm f) is in Ok (initIdx2Ref (mk_freq m (refs f) true), is).
End Stream.
End Freq.
Arguments mk_freq {E}. Arguments fm {E}. Arguments refs {E}. Arguments stale {E}. Arguments f_clear {E}.

(** ** FrequencyVec: Frequency<uint8_t, Int> and Frequency<char, Int> *)
Section Vec.
Variables (w : Z) (schar : bool).     (* schar: Element is a signed char *)
Variable sort : (Z -> Z -> bool) -> list Z -> list Z.

(** frequency.hpp:22-28; char2idx_ and idx2char_ are not initialised before ready(): [None] *)
Record fvec := mk_fvec { v_size : Z; freqTbl : list Z; v_idx : option (list Z * list Z) }.
(** frequency.hpp:45, 52-56 clear (the index tables keep what they held) *)
Definition v_clear (v : fvec) : fvec := mk_fvec 0 (repeat 0 256) (v_idx v).
Definition v_new : fvec := mk_fvec 0 (repeat 0 256) None.
Definition toE (c : Z) : Z := if schar then to_s 8 c else c.
(** frequency.hpp:66-69 append *)
Definition v_append (v : fvec) (e : Z) : res fvec :=
  let! n := rd (freqTbl v) (to_u 8 e) in
  let! t := wr (freqTbl v) (to_u 8 e) ((n + 1) mod 2 ^ w) in Ok (mk_fvec (v_size v) t (v_idx v)).
(** frequency.hpp:29-40 Greater *)
Definition v_greater (t : list Z) (a b : Z) : bool :=
  let x := nth (Z.to_nat a) t 0 in let y := nth (Z.to_nat b) t 0 in
  if x >? y then true else if x <? y then false else x >? y.
(** frequency.hpp:70-81 ready; [c2i] starts as whatever memory held *)
Fixpoint v_fill (l : list Z) (i : Z) (t : list Z) (c2i : list Z) (size : Z) : res (list Z * Z) :=
  match l with
  | [] => Ok (c2i, size)
  | c :: r =>
      let! c2i := wr c2i c (to_u 8 i) in
      let! n := rd t c in
      v_fill r (i + 1) t c2i (if n =? 0 then size else size + 1)
  end.
Definition v_ready (v : fvec) (junk : list Z) : res fvec :=
  let i2c := sort (v_greater (freqTbl v)) (map Z.of_nat (seq 0 256)) in
  let! (c2i, size) := v_fill i2c 0 (freqTbl v) junk 0 in
  Ok (mk_fvec size (freqTbl v) (Some (c2i, i2c))).
(** frequency.hpp:57-65 init *)
Fixpoint v_append_all (v : fvec) (s : list Z) : res fvec :=
  match s with [] => Ok v | e :: r => let! v := v_append v e in v_append_all v r end.
Definition v_init (v : fvec) (s junk : list Z) : res fvec := let! v := v_append_all v s in v_ready v junk.
(** frequency.hpp:85, 89, 93-98; assert(idx < N) *)
Definition v_getFrequency (v : fvec) (e : Z) : res Z := rd (freqTbl v) (to_u 8 e).
Definition v_getIndex (v : fvec) (e : Z) : res Z := match v_idx v with None => UB | Some (c2i, _) => rd c2i (to_u 8 e) end.
Definition v_getElement (v : fvec) (i : Z) : res Z :=
  match v_idx v with None => UB | Some (_, i2c) => let! c := rd i2c i in Ok (toE c) end.
(** frequency.hpp:100-114 save and load: size_ as a size_t, then the raw bytes of the three tables; serializer.hpp:58-68 *)
Section Stream.
Variables (little : bool) (size_t : cint) (k : nat).   (* k = sizeof(Int) *)
Definition saveRange (k : nat) (l : list Z) : list Z := concat (map (savePod little k) l).
Fixpoint chunks (k n : nat) (b : list Z) : list Z :=
  match n with
  | O => []
  | S n => EndianModel.of_le (if little then firstn k b else rev (firstn k b)) :: chunks k n (skipn k b)
  end.
Definition loadRange (k n : nat) (is : istream) : res (list Z * istream) :=
  let! (b, is) := read (Z.of_nat n * Z.of_nat k) is in Ok (chunks k n b, is).
Definition v_save (v : fvec) : res (list Z) :=
  let! h := saveVariableInt little size_t (v_size v) in
  match v_idx v with
  | None => UB
  | Some (c2i, i2c) => Ok (h ++ saveRange k (freqTbl v) ++ saveRange 1 c2i ++ saveRange 1 i2c)
  end.
Definition v_load (is : istream) : res (fvec * istream) :=
  let! (n, is) := loadVariableInt little size_t is in
  let! (t, is) := loadRange k 256 is in
  let! (c2i, is) := loadRange 1 256 is in
  let! (i2c, is) := loadRange 1 256 is in
  Ok (mk_fvec n t (Some (c2i, i2c)), is).
End Stream.
End Vec.
