(** Model of include/cybozu/sha1.hpp, of the built-in implementation in include/cybozu/sha2.hpp
    (CYBOZU_DONT_USE_OPENSSL) and of hmac256.  Arrays are lists with checked access. *)
Require Import Verif.Common Verif.ItoaModel Verif.EndianModel.

(** the hash objects: totalSize_, roundBufSize_, roundBuf_, H_/h_ (sha1.hpp:21-24, sha2.hpp:304-307) *)
Record sha := mk_sha { s_total : Z; s_bufSize : Z; s_buf : list Z; s_h : list Z }.

Section Engine.
Variable bs : Z.                                       (* 64 or blockSize_ *)
Variable compress : list Z -> list Z -> res (list Z).  (* what round does to H_, given the pointer to the block *)

(** sha1.hpp:78, 104 / sha2.hpp:335, 365: round *)
Definition sh_round (s : sha) (p : list Z) : res sha :=
  let! h := compress (s_h s) p in
  Ok (mk_sha ((s_total s + bs) mod 2 ^ 64) (s_bufSize s) (s_buf s) h).

(** sha1.hpp:153-158 / sha2.hpp:282-287 the while loop *)
Fixpoint sh_while (fuel : nat) (s : sha) (buf : list Z) : res (sha * list Z) :=
  match fuel with
  | O => Fuel
  | S f =>
    if bs <=? zlen buf then
      let! s := sh_round s buf in
      sh_while f s (skipn (Z.to_nat bs) buf)
    else Ok (s, buf)
  end.

(** sha1.hpp:138-166 update / sha2.hpp:266-295 inner_update (the same code); asserts off *)
Definition sh_update (s : sha) (buf : list Z) : res sha :=
  if zlen buf =? 0 then Ok s else
  let! (s, buf) :=
    (if 0 <? s_bufSize s then
      let size := Z.min (bs - s_bufSize s) (zlen buf) in
      let! rb := memcpy_at (s_buf s) (s_bufSize s) (firstn (Z.to_nat size) buf) in
      Ok (mk_sha (s_total s) (s_bufSize s + size) rb (s_h s), skipn (Z.to_nat size) buf)
    else Ok (s, buf)) in
  let! s :=
    (if s_bufSize s =? bs then
      let! s := sh_round s (s_buf s) in
      Ok (mk_sha (s_total s) 0 (s_buf s) (s_h s))
    else Ok s) in
  let! (s, buf) := sh_while (S (length buf)) s buf in
  if 0 <? zlen buf then
    let! rb := memcpy_at (s_buf s) 0 buf in
    Ok (mk_sha (s_total s) (zlen buf) rb (s_h s))
  else Ok s.

Variable little : bool.
(** sha2.hpp:251-265 Common::term(roundBuf_, roundBufSize_) *)
Definition sh2_term (msgLenByte : Z) (s : sha) : res sha :=
  let n := s_bufSize s in
  let totalSize := (s_total s + n) mod 2 ^ 64 in
  let! b := wr (s_buf s) n 128 in
  let! b := memcpy_at b (n + 1) (repeat 0 (Z.to_nat (bs - n - 1))) in
  let! (s, b) :=
    (if bs - msgLenByte <=? n then
      let! s := sh_round s b in
      let! b := memcpy_at b 0 (repeat 0 (Z.to_nat (bs - 8))) in
      Ok (s, b)
    else Ok (s, b)) in
  let! b := at_off (Z.to_nat (bs - 8)) b (fun q => Set64bitAsBE little q ((totalSize * 8) mod 2 ^ 64)) in
  let! s := sh_round s b in
  Ok (mk_sha (s_total s) (s_bufSize s) b (s_h s)).

(** sha1.hpp:111-131 term(roundBuf_, roundBufSize_) up to the output; last is a local array *)
Definition sh1_term (junk : Z) (s : sha) : res sha :=
  let n := s_bufSize s in
  let totalSize := (s_total s + n) mod 2 ^ 64 in
  let! last := memcpy_at (repeat junk 64) 0 (firstn (Z.to_nat n) (s_buf s)) in
  let! last := memcpy_at last n (repeat 0 (Z.to_nat (64 - n))) in
  let! last := wr last n 128 in
  let! (s, last) :=
    (if 56 <=? n then
      let! s := sh_round s last in
      let! last := memcpy_at last 0 (repeat 0 64) in
      Ok (s, last)
    else Ok (s, last)) in
  let! last := at_off 56 last (fun q => Set32bitAsBE little q (Z.shiftr totalSize 29 mod 2 ^ 32)) in
  let! last := at_off 60 last (fun q => Set32bitAsBE little q (((totalSize * 8) mod 2 ^ 64) mod 2 ^ 32)) in
  sh_round s last.
End Engine.

(** ** SHA-1 *)
Section Sha1.
Variable little : bool.
Variable junk : Z.  (* what uninitialised memory holds *)
(** sha1.hpp:29-36 S *)
Definition S1 (x s : Z) : Z := Z.lor (Z.shiftl x s mod 2 ^ 32) (Z.shiftr x (32 - s)).
(** sha1.hpp:38-54 f0, f1, f2, f *)
Definition not32 (x : Z) : Z := Z.lnot x mod 2 ^ 32.
Definition f0 (b c d : Z) : Z := Z.lor (Z.land b c) (Z.land (not32 b) d).
Definition f1 (b c d : Z) : Z := Z.lxor (Z.lxor b c) d.
Definition f2 (b c d : Z) : Z := Z.lor (Z.lor (Z.land b c) (Z.land b d)) (Z.land c d).
Definition f_ (t b c d : Z) : Z :=
  if t <? 20 then f0 b c d else if t <? 40 then f1 b c d else if t <? 60 then f2 b c d else f1 b c d.
(** sha1.hpp:58-65 K_ *)
Definition K1 : list Z := concat (map (fun x => repeat x 20) [0x5a827999; 0x6ed9eba1; 0x8f1bbcdc; 0xca62c1d6]).
(** sha1.hpp:68-72 *)
Definition H1 : list Z := [0x67452301; 0xefcdab89; 0x98badcfe; 0x10325476; 0xc3d2e1f0].
(** sha1.hpp:81-83 *)
Fixpoint w1_load (n : nat) (i : Z) (buf W : list Z) : res (list Z) :=
  match n with
  | O => Ok W
  | S n' => let! x := Get32bitAsBE little (skipn (Z.to_nat (i * 4)) buf) in let! W := wr W i x in w1_load n' (i + 1) buf W
  end.
(** sha1.hpp:84-86 *)
Fixpoint w1_ext (n : nat) (i : Z) (W : list Z) : res (list Z) :=
  match n with
  | O => Ok W
  | S n' =>
    let! a := rd W (i - 3) in let! b := rd W (i - 8) in let! c := rd W (i - 14) in let! d := rd W (i - 16) in
    let! W := wr W i (S1 (Z.lxor (Z.lxor (Z.lxor a b) c) d) 1) in
    w1_ext n' (i + 1) W
  end.
(** sha1.hpp:92-99 *)
Fixpoint r1_loop (n : nat) (i : Z) (W : list Z) (a b c d e : Z) : res (list Z) :=
  match n with
  | O => Ok [a; b; c; d; e]
  | S n' =>
    let! w := rd W i in let! k := rd K1 i in
    let tmp := (((((((S1 a 5 + f_ i b c d) mod 2 ^ 32) + e) mod 2 ^ 32) + w) mod 2 ^ 32) + k) mod 2 ^ 32 in
    r1_loop n' (i + 1) W tmp a (S1 b 30) c d
  end.
(** H_[i] += ..., sha1.hpp:100-104 and sha2.hpp:362-364, 495-497 *)
Fixpoint add_all (M : Z) (n : nat) (i : Z) (H s : list Z) : res (list Z) :=
  match n with
  | O => Ok H
  | S n' => let! x := rd H i in let! y := rd s i in let! H := wr H i ((x + y) mod M) in add_all M n' (i + 1) H s
  end.
(** sha1.hpp:78-105 round *)
Definition compress1 (H p : list Z) : res (list Z) :=
  let! W := w1_load 16 0 p (repeat junk 80) in
  let! W := w1_ext 64 16 W in
  let! a := rd H 0 in let! b := rd H 1 in let! c := rd H 2 in let! d := rd H 3 in let! e := rd H 4 in
  let! s := r1_loop 80 0 W a b c d e in
  add_all (2 ^ 32) 5 0 H s.
(** sha1.hpp:128-130, 198-205 digest_ and get(); big-endian words *)
Fixpoint put32 (n : nat) (i : Z) (h md : list Z) : res (list Z) :=
  match n with
  | O => Ok md
  | S n' =>
    let! x := rd h i in
    let! md := at_off (Z.to_nat (i * 4)) md (fun q => Set32bitAsBE little q x) in
    put32 n' (i + 1) h md
  end.
(** sha1.hpp:56-74 reset, leaving roundBuf_ *)
Definition sha1_reset (rb : list Z) : sha := mk_sha 0 0 rb H1.
(** sha1.hpp:134-137 constructor *)
Definition sha1_new : sha := sha1_reset (repeat junk 64).
Definition sha1_update (s : sha) (buf : list Z) : res sha := sh_update 64 compress1 s buf.
(** sha1.hpp:171-179 digest: the result and the object *)
Definition sha1_digest (s : sha) (buf : list Z) : res (list Z * sha) :=
  let! s := sha1_update s buf in
  let! s := sh1_term 64 compress1 little junk s in
  let! out := put32 5 0 (s_h s) (repeat junk 20) in
  Ok (out, sha1_reset (s_buf s)).
End Sha1.

(** ** SHA-2 *)
Section Sha2.
Variable little : bool.
Variable junk : Z.
(** sha2.hpp:231-247 rot32, rot64 *)
Definition rot (wb x s : Z) : Z := Z.lor (Z.shiftr x s) (Z.shiftl x (wb - s) mod 2 ^ wb).
(** sha2.hpp:339-341 *)
Fixpoint w32_load (n : nat) (i : Z) (buf w : list Z) : res (list Z) :=
  match n with
  | O => Ok w
  | S n' => let! x := Get32bitAsBE little (skipn (Z.to_nat (i * 4)) buf) in let! w := wr w i x in w32_load n' (i + 1) buf w
  end.
(** sha2.hpp:342-348 *)
Fixpoint w32_ext (n : nat) (i : Z) (w : list Z) : res (list Z) :=
  match n with
  | O => Ok w
  | S n' =>
    let! t := rd w (i - 15) in
    let s0 := Z.lxor (Z.lxor (rot 32 t 7) (rot 32 t 18)) (Z.shiftr t 3) in
    let! t := rd w (i - 2) in
    let s1 := Z.lxor (Z.lxor (rot 32 t 17) (rot 32 t 19)) (Z.shiftr t 10) in
    let! a := rd w (i - 16) in let! b := rd w (i - 7) in
    let! w := wr w i (((((a + s0) mod 2 ^ 32) + b) mod 2 ^ 32 + s1) mod 2 ^ 32) in
    w32_ext n' (i + 1) w
  end.
(** sha2.hpp:375-384 *)
Definition K256 : list Z :=
  [ 0x428a2f98; 0x71374491; 0xb5c0fbcf; 0xe9b5dba5; 0x3956c25b; 0x59f111f1; 0x923f82a4; 0xab1c5ed5;
    0xd807aa98; 0x12835b01; 0x243185be; 0x550c7dc3; 0x72be5d74; 0x80deb1fe; 0x9bdc06a7; 0xc19bf174;
    0xe49b69c1; 0xefbe4786; 0xfc19dc6; 0x240ca1cc; 0x2de92c6f; 0x4a7484aa; 0x5cb0a9dc; 0x76f988da;
    0x983e5152; 0xa831c66d; 0xb00327c8; 0xbf597fc7; 0xc6e00bf3; 0xd5a79147; 0x6ca6351; 0x14292967;
    0x27b70a85; 0x2e1b2138; 0x4d2c6dfc; 0x53380d13; 0x650a7354; 0x766a0abb; 0x81c2c92e; 0x92722c85;
    0xa2bfe8a1; 0xa81a664b; 0xc24b8b70; 0xc76c51a3; 0xd192e819; 0xd6990624; 0xf40e3585; 0x106aa070;
    0x19a4c116; 0x1e376c08; 0x2748774c; 0x34b0bcb5; 0x391c0cb3; 0x4ed8aa4a; 0x5b9cca4f; 0x682e6ff3;
    0x748f82ee; 0x78a5636f; 0x84c87814; 0x8cc70208; 0x90befffa; 0xa4506ceb; 0xbef9a3f7; 0xc67178f2 ].
(** sha2.hpp:388-395 *)
Definition H256 : list Z :=
  [ 0x6a09e667; 0xbb67ae85; 0x3c6ef372; 0xa54ff53a; 0x510e527f; 0x9b05688c; 0x1f83d9ab; 0x5be0cd19 ].
(** sha2.hpp:312-331 round1 *)
Definition round1_256 (i0 i1 i2 i3 i4 i5 i6 i7 : Z) (s w : list Z) (i : Z) : res (list Z) :=
  let! e := rd s i4 in
  let! h := rd s i7 in
  let h := (h + Z.lxor (Z.lxor (rot 32 e 6) (rot 32 e 11)) (rot 32 e 25)) mod 2 ^ 32 in
  let! f := rd s i5 in
  let! g := rd s i6 in
  let h := (h + Z.lxor g (Z.land e (Z.lxor f g))) mod 2 ^ 32 in
  let! k := rd K256 i in
  let h := (h + k) mod 2 ^ 32 in
  let! x := rd w i in
  let h := (h + x) mod 2 ^ 32 in
  let! d := rd s i3 in
  let! s := wr s i3 ((d + h) mod 2 ^ 32) in
  let! a := rd s i0 in
  let! b := rd s i1 in
  let! c := rd s i2 in
  let h := (h + Z.lxor (Z.lxor (rot 32 a 2) (rot 32 a 13)) (rot 32 a 22)) mod 2 ^ 32 in
  let h := (h + Z.lor (Z.land (Z.lor a b) c) (Z.land a b)) mod 2 ^ 32 in
  wr s i7 h.
(** sha2.hpp:353-362 and 486-495 the loop; n counts its iterations *)
Fixpoint rounds (round1 : Z -> Z -> Z -> Z -> Z -> Z -> Z -> Z -> list Z -> list Z -> Z -> res (list Z)) (n : nat) (i : Z) (s w : list Z) : res (list Z) :=
  match n with
  | O => Ok s
  | S n' =>
    let! s := round1 0 1 2 3 4 5 6 7 s w (i + 0) in
    let! s := round1 7 0 1 2 3 4 5 6 s w (i + 1) in
    let! s := round1 6 7 0 1 2 3 4 5 s w (i + 2) in
    let! s := round1 5 6 7 0 1 2 3 4 s w (i + 3) in
    let! s := round1 4 5 6 7 0 1 2 3 s w (i + 4) in
    let! s := round1 3 4 5 6 7 0 1 2 s w (i + 5) in
    let! s := round1 2 3 4 5 6 7 0 1 s w (i + 6) in
    let! s := round1 1 2 3 4 5 6 7 0 s w (i + 7) in
    rounds round1 n' (i + 8) s w
  end.
(** sha2.hpp:349-352 copy of h_ *)
Fixpoint copy8 (n : nat) (i : Z) (h s : list Z) : res (list Z) :=
  match n with
  | O => Ok s
  | S n' => let! x := rd h i in let! s := wr s i x in copy8 n' (i + 1) h s
  end.
(** sha2.hpp:335-366 round *)
Definition compress256 (H p : list Z) : res (list Z) :=
  let! w := w32_load 16 0 p (repeat junk 64) in
  let! w := w32_ext 48 16 w in
  let! s := copy8 8 0 H (repeat junk 8) in
  let! s := rounds round1_256 8 0 s w in
  add_all (2 ^ 32) 8 0 H s.
(** sha2.hpp:373-396 clear, leaving roundBuf_ *)
Definition sha256_clear (rb : list Z) : sha := mk_sha 0 0 rb H256.
(** sha2.hpp:368-371 constructor *)
Definition sha256_new : sha := sha256_clear (repeat junk 64).
Definition sha256_update (s : sha) (buf : list Z) : res sha := sh_update 64 compress256 s buf.
(** sha2.hpp:401-411 digest: md (of mdSize bytes) afterwards, the returned size, the object *)
Definition sha256_digest (s : sha) (md buf : list Z) : res (list Z * Z * sha) :=
  if zlen md <? 32 then Ok (md, 0, s) else
  let! s := sha256_update s buf in
  let! s := sh2_term 64 compress256 little 8 s in
  let! md := put32 little 8 0 (s_h s) md in
  Ok (md, 32, s).

(** sha2.hpp:472-474 *)
Fixpoint w64_load (n : nat) (i : Z) (buf w : list Z) : res (list Z) :=
  match n with
  | O => Ok w
  | S n' => let! x := Get64bitAsBE little (skipn (Z.to_nat (i * 8)) buf) in let! w := wr w i x in w64_load n' (i + 1) buf w
  end.
(** sha2.hpp:475-481 *)
Fixpoint w64_ext (n : nat) (i : Z) (w : list Z) : res (list Z) :=
  match n with
  | O => Ok w
  | S n' =>
    let! t := rd w (i - 15) in
    let s0 := Z.lxor (Z.lxor (rot 64 t 1) (rot 64 t 8)) (Z.shiftr t 7) in
    let! t := rd w (i - 2) in
    let s1 := Z.lxor (Z.lxor (rot 64 t 19) (rot 64 t 61)) (Z.shiftr t 6) in
    let! a := rd w (i - 16) in let! b := rd w (i - 7) in
    let! w := wr w i (((((a + s0) mod 2 ^ 64) + b) mod 2 ^ 64 + s1) mod 2 ^ 64) in
    w64_ext n' (i + 1) w
  end.
(** sha2.hpp:508-525 *)
Definition K512 : list Z :=
  [ 0x428a2f98d728ae22; 0x7137449123ef65cd; 0xb5c0fbcfec4d3b2f; 0xe9b5dba58189dbbc;
    0x3956c25bf348b538; 0x59f111f1b605d019; 0x923f82a4af194f9b; 0xab1c5ed5da6d8118;
    0xd807aa98a3030242; 0x12835b0145706fbe; 0x243185be4ee4b28c; 0x550c7dc3d5ffb4e2;
    0x72be5d74f27b896f; 0x80deb1fe3b1696b1; 0x9bdc06a725c71235; 0xc19bf174cf692694;
    0xe49b69c19ef14ad2; 0xefbe4786384f25e3; 0xfc19dc68b8cd5b5; 0x240ca1cc77ac9c65;
    0x2de92c6f592b0275; 0x4a7484aa6ea6e483; 0x5cb0a9dcbd41fbd4; 0x76f988da831153b5;
    0x983e5152ee66dfab; 0xa831c66d2db43210; 0xb00327c898fb213f; 0xbf597fc7beef0ee4;
    0xc6e00bf33da88fc2; 0xd5a79147930aa725; 0x6ca6351e003826f; 0x142929670a0e6e70;
    0x27b70a8546d22ffc; 0x2e1b21385c26c926; 0x4d2c6dfc5ac42aed; 0x53380d139d95b3df;
    0x650a73548baf63de; 0x766a0abb3c77b2a8; 0x81c2c92e47edaee6; 0x92722c851482353b;
    0xa2bfe8a14cf10364; 0xa81a664bbc423001; 0xc24b8b70d0f89791; 0xc76c51a30654be30;
    0xd192e819d6ef5218; 0xd69906245565a910; 0xf40e35855771202a; 0x106aa07032bbd1b8;
    0x19a4c116b8d2d0c8; 0x1e376c085141ab53; 0x2748774cdf8eeb99; 0x34b0bcb5e19b48a8;
    0x391c0cb3c5c95a63; 0x4ed8aa4ae3418acb; 0x5b9cca4f7763e373; 0x682e6ff3d6b2b8a3;
    0x748f82ee5defb2fc; 0x78a5636f43172f60; 0x84c87814a1f0ab72; 0x8cc702081a6439ec;
    0x90befffa23631e28; 0xa4506cebde82bde9; 0xbef9a3f7b2c67915; 0xc67178f2e372532b;
    0xca273eceea26619c; 0xd186b8c721c0c207; 0xeada7dd6cde0eb1e; 0xf57d4f7fee6ed178;
    0x6f067aa72176fba; 0xa637dc5a2c898a6; 0x113f9804bef90dae; 0x1b710b35131c471b;
    0x28db77f523047d84; 0x32caab7b40c72493; 0x3c9ebe0a15c9bebc; 0x431d67c49c100d4c;
    0x4cc5d4becb3e42b6; 0x597f299cfc657e2a; 0x5fcb6fab3ad6faec; 0x6c44198c4a475817 ].
(** sha2.hpp:529-536 *)
Definition H512 : list Z :=
  [ 0x6a09e667f3bcc908; 0xbb67ae8584caa73b; 0x3c6ef372fe94f82b; 0xa54ff53a5f1d36f1;
    0x510e527fade682d1; 0x9b05688c2b3e6c1f; 0x1f83d9abfb41bd6b; 0x5be0cd19137e2179 ].
(** sha2.hpp:443-463 round1 *)
Definition round1_512 (i0 i1 i2 i3 i4 i5 i6 i7 : Z) (S w : list Z) (i : Z) : res (list Z) :=
  let! a := rd S i0 in let! b := rd S i1 in let! c := rd S i2 in let! d := rd S i3 in
  let! e := rd S i4 in let! f := rd S i5 in let! g := rd S i6 in let! h := rd S i7 in
  let s1 := Z.lxor (Z.lxor (rot 64 e 14) (rot 64 e 18)) (rot 64 e 41) in
  let ch := Z.lxor g (Z.land e (Z.lxor f g)) in
  let! k := rd K512 i in
  let! x := rd w i in
  let t0 := ((((((h + s1) mod 2 ^ 64) + ch) mod 2 ^ 64 + k) mod 2 ^ 64) + x) mod 2 ^ 64 in
  let s0 := Z.lxor (Z.lxor (rot 64 a 28) (rot 64 a 34)) (rot 64 a 39) in
  let maj := Z.lor (Z.land (Z.lor a b) c) (Z.land a b) in
  let t1 := (s0 + maj) mod 2 ^ 64 in
  let! S := wr S i3 ((d + t0) mod 2 ^ 64) in
  wr S i7 ((t0 + t1) mod 2 ^ 64).
(** sha2.hpp:468-499 round *)
Definition compress512 (H p : list Z) : res (list Z) :=
  let! w := w64_load 16 0 p (repeat junk 80) in
  let! w := w64_ext 64 16 w in
  let! s := copy8 8 0 H (repeat junk 8) in
  let! s := rounds round1_512 10 0 s w in
  add_all (2 ^ 64) 8 0 H s.
(** sha2.hpp:506-537 clear *)
Definition sha512_clear (rb : list Z) : sha := mk_sha 0 0 rb H512.
(** sha2.hpp:501-505 constructor *)
Definition sha512_new : sha := sha512_clear (repeat junk 128).
Definition sha512_update (s : sha) (buf : list Z) : res sha := sh_update 128 compress512 s buf.
(** sha2.hpp:547-549 *)
Fixpoint put64 (n : nat) (i : Z) (h md : list Z) : res (list Z) :=
  match n with
  | O => Ok md
  | S n' =>
    let! x := rd h i in
    let! md := at_off (Z.to_nat (i * 8)) md (fun q => Set64bitAsBE little q x) in
    put64 n' (i + 1) h md
  end.
(** sha2.hpp:542-552 digest *)
Definition sha512_digest (s : sha) (md buf : list Z) : res (list Z * Z * sha) :=
  if zlen md <? 64 then Ok (md, 0, s) else
  let! s := sha512_update s buf in
  let! s := sh2_term 128 compress512 little 16 s in
  let! md := put64 8 0 (s_h s) md in
  Ok (md, 64, s).

(** sha2.hpp:595-597, 602-604: k[i] ^= x for the first n bytes *)
Fixpoint xor_bytes (n : nat) (i x : Z) (k : list Z) : res (list Z) :=
  match n with
  | O => Ok k
  | S n' => let! b := rd k i in let! k := wr k i (Z.lxor b x) in xor_bytes n' (i + 1) x k
  end.
(** sha2.hpp:581-607 hmac256; hmac is the 32-byte output buffer *)
Definition hmac256 (hmac key msg : list Z) : res (list Z) :=
  let k := repeat junk 64 in
  let hash := sha256_new in
  let! (k, hash, keySize) :=
    (if 64 <? zlen key then
      let! (d, _, hash) := sha256_digest hash (firstn 32 k) key in
      let! k := memcpy_at k 0 d in
      Ok (k, sha256_clear (s_buf hash), 32)
    else let! k := memcpy_at k 0 key in Ok (k, hash, zlen key)) in
  let! k := xor_bytes (Z.to_nat keySize) 0 54 k in
  let! k := memcpy_at k keySize (repeat 54 (Z.to_nat (64 - keySize))) in
  let! hash := sha256_update hash k in
  let! (hmac, _, hash) := sha256_digest hash hmac msg in
  let hash := sha256_clear (s_buf hash) in
  let! k := xor_bytes 64 0 (Z.lxor 54 92) k in
  let! hash := sha256_update hash k in
  let! (hmac, _, _) := sha256_digest hash hmac hmac in
  Ok hmac.
End Sha2.
