(** Specification of SHA-1, SHA-256, SHA-512 (FIPS 180-4) and of HMAC-SHA-256 (RFC 2104),
    independent of the model. Words are integers in [0, 2^w). *)
Require Import Verif.Common.

(** FIPS 180-4 section 2.2.2, 3.2: operations on w-bit words *)
Definition NOT (w x : Z) : Z := 2 ^ w - 1 - x.
Definition SHR (n x : Z) : Z := x / 2 ^ n.
Definition ROTR (w n x : Z) : Z := x / 2 ^ n + (x mod 2 ^ n) * 2 ^ (w - n).
Definition ROTL (w n x : Z) : Z := (x mod 2 ^ (w - n)) * 2 ^ n + x / 2 ^ (w - n).
Definition XOR3 (x y z : Z) : Z := Z.lxor (Z.lxor x y) z.
Definition sum (w : Z) (l : list Z) : Z := fold_right Z.add 0 l mod 2 ^ w.
(** section 4.1 *)
Definition Ch (w x y z : Z) : Z := Z.lxor (Z.land x y) (Z.land (NOT w x) z).
Definition Parity (x y z : Z) : Z := XOR3 x y z.
Definition Maj (x y z : Z) : Z := XOR3 (Z.land x y) (Z.land x z) (Z.land y z).

(** bytes of a number / number of bytes, most significant first *)
Definition be (n : nat) (x : Z) : list Z := map (fun i => x / 256 ^ (Z.of_nat n - 1 - Z.of_nat i) mod 256) (seq 0 n).
Definition be_num (l : list Z) : Z := fold_left (fun a b => a * 256 + b) l 0.

(** section 5.1: a one bit, then the least number of zero bits such that the length field (lb bytes)
    ends a block of bs bytes, then the length in bits *)
Definition zeros (bs lb : Z) (len : Z) : Z := (bs - lb - 1 - len) mod bs.
Definition pad (bs lb : Z) (m : list Z) : list Z :=
  m ++ [128] ++ repeat 0 (Z.to_nat (zeros bs lb (zlen m))) ++ be (Z.to_nat lb) (8 * zlen m).
(** section 5.2: cut into blocks; words of a block *)
Fixpoint cut (n k : nat) (m : list Z) : list (list Z) :=
  match k with O => [] | S k' => firstn n m :: cut n k' (skipn n m) end.
Definition blocks (bs : nat) (m : list Z) : list (list Z) := cut bs (length m / bs) m.
Definition words (wb : nat) (b : list Z) : list Z := map be_num (cut wb 16 b).

(** message schedule: W_t is computed from the earlier ones, [back W k] is W_(t-k) *)
Definition back (W : list Z) (k : nat) : Z := nth (length W - k) W 0.
Fixpoint schedule (next : list Z -> Z) (n : nat) (W : list Z) : list Z :=
  match n with O => W | S n' => schedule next n' (W ++ [next W]) end.

(** one block: schedule, rounds t = 0 .. n-1, addition to the previous hash value *)
Definition hash_block (w : Z) (next : list Z -> Z) (round : nat -> Z -> list Z -> list Z) (n : nat) (H b : list Z) : list Z :=
  let W := schedule next (n - 16) (words (Z.to_nat (w / 8)) b) in
  let v := fold_left (fun v t => round t (nth t W 0) v) (seq 0 n) H in
  map (fun '(x, y) => sum w [x; y]) (combine v H).
Definition hash_msg (w bs lb : Z) (next : list Z -> Z) (round : nat -> Z -> list Z -> list Z) (n : nat) (H0 m : list Z) : list Z :=
  flat_map (be (Z.to_nat (w / 8))) (fold_left (hash_block w next round n) (blocks (Z.to_nat bs) (pad bs lb m)) H0).

(** ** SHA-1: sections 4.1.1, 4.2.1, 5.3.1, 6.1.2 *)
Definition sha1_f (t : nat) : Z -> Z -> Z -> Z :=
  if (t <? 20)%nat then Ch 32 else if (t <? 40)%nat then Parity else if (t <? 60)%nat then Maj else Parity.
Definition sha1_K (t : nat) : Z :=
  if (t <? 20)%nat then 0x5a827999 else if (t <? 40)%nat then 0x6ed9eba1 else if (t <? 60)%nat then 0x8f1bbcdc else 0xca62c1d6.
Definition sha1_H0 : list Z := [0x67452301; 0xefcdab89; 0x98badcfe; 0x10325476; 0xc3d2e1f0].
Definition sha1_next (W : list Z) : Z :=
  ROTL 32 1 (Z.lxor (XOR3 (back W 3) (back W 8) (back W 14)) (back W 16)).
Definition sha1_round (t : nat) (Wt : Z) (v : list Z) : list Z :=
  match v with
  | [a; b; c; d; e] => [sum 32 [ROTL 32 5 a; sha1_f t b c d; e; sha1_K t; Wt]; a; ROTL 32 30 b; c; d]
  | _ => v
  end.
Definition SHA1 : list Z -> list Z := hash_msg 32 64 8 sha1_next sha1_round 80 sha1_H0.

(** ** SHA-256 and SHA-512: sections 4.1.2-3, 6.2.2, 6.4.2 *)
Definition sha2_round (w : Z) (Sigma0 Sigma1 : Z -> Z) (K : list Z) (t : nat) (Wt : Z) (v : list Z) : list Z :=
  match v with
  | [a; b; c; d; e; f; g; h] =>
    let T1 := sum w [h; Sigma1 e; Ch w e f g; nth t K 0; Wt] in
    let T2 := sum w [Sigma0 a; Maj a b c] in
    [sum w [T1; T2]; a; b; c; sum w [d; T1]; e; f; g]
  | _ => v
  end.
Definition sha2_next (w : Z) (sigma0 sigma1 : Z -> Z) (W : list Z) : Z :=
  sum w [sigma1 (back W 2); back W 7; sigma0 (back W 15); back W 16].

Definition S0_256 x := XOR3 (ROTR 32 2 x) (ROTR 32 13 x) (ROTR 32 22 x).
Definition S1_256 x := XOR3 (ROTR 32 6 x) (ROTR 32 11 x) (ROTR 32 25 x).
Definition s0_256 x := XOR3 (ROTR 32 7 x) (ROTR 32 18 x) (SHR 3 x).
Definition s1_256 x := XOR3 (ROTR 32 17 x) (ROTR 32 19 x) (SHR 10 x).
Definition sha256_K : list Z :=
  [ 0x428a2f98; 0x71374491; 0xb5c0fbcf; 0xe9b5dba5; 0x3956c25b; 0x59f111f1; 0x923f82a4; 0xab1c5ed5;
    0xd807aa98; 0x12835b01; 0x243185be; 0x550c7dc3; 0x72be5d74; 0x80deb1fe; 0x9bdc06a7; 0xc19bf174;
    0xe49b69c1; 0xefbe4786; 0xfc19dc6; 0x240ca1cc; 0x2de92c6f; 0x4a7484aa; 0x5cb0a9dc; 0x76f988da;
    0x983e5152; 0xa831c66d; 0xb00327c8; 0xbf597fc7; 0xc6e00bf3; 0xd5a79147; 0x6ca6351; 0x14292967;
    0x27b70a85; 0x2e1b2138; 0x4d2c6dfc; 0x53380d13; 0x650a7354; 0x766a0abb; 0x81c2c92e; 0x92722c85;
    0xa2bfe8a1; 0xa81a664b; 0xc24b8b70; 0xc76c51a3; 0xd192e819; 0xd6990624; 0xf40e3585; 0x106aa070;
    0x19a4c116; 0x1e376c08; 0x2748774c; 0x34b0bcb5; 0x391c0cb3; 0x4ed8aa4a; 0x5b9cca4f; 0x682e6ff3;
    0x748f82ee; 0x78a5636f; 0x84c87814; 0x8cc70208; 0x90befffa; 0xa4506ceb; 0xbef9a3f7; 0xc67178f2 ].
Definition sha256_H0 : list Z :=
  [ 0x6a09e667; 0xbb67ae85; 0x3c6ef372; 0xa54ff53a; 0x510e527f; 0x9b05688c; 0x1f83d9ab; 0x5be0cd19 ].
Definition SHA256 : list Z -> list Z :=
  hash_msg 32 64 8 (sha2_next 32 s0_256 s1_256) (sha2_round 32 S0_256 S1_256 sha256_K) 64 sha256_H0.

Definition S0_512 x := XOR3 (ROTR 64 28 x) (ROTR 64 34 x) (ROTR 64 39 x).
Definition S1_512 x := XOR3 (ROTR 64 14 x) (ROTR 64 18 x) (ROTR 64 41 x).
Definition s0_512 x := XOR3 (ROTR 64 1 x) (ROTR 64 8 x) (SHR 7 x).
Definition s1_512 x := XOR3 (ROTR 64 19 x) (ROTR 64 61 x) (SHR 6 x).
Definition sha512_K : list Z :=
  [ 0x428a2f98d728ae22; 0x7137449123ef65cd; 0xb5c0fbcfec4d3b2f; 0xe9b5dba58189dbbc;
    0x3956c25bf348b538; 0x59f111f1b605d019; 0x923f82a4af194f9b; 0xab1c5ed5da6d8118;
    0xd807aa98a3030242; 0x12835b0145706fbe; 0x243185be4ee4b28c; 0x550c7dc3d5ffb4e2;
    0x72be5d74f27b896f; 0x80deb1fe3b1696b1; 0x9bdc06a725c71235; 0xc19bf174cf692694;
    0xe49b69c19ef14ad2; 0xefbe4786384f25e3; 0xfc19dc68b8cd5b5; 0x240ca1cc77ac9c65;
    0x2de92c6f592b0275; 0x4a7484aa6ea6e483; 0x5cb0a9dcbd41fbd4; 0x76f988da831153b5;
    0x983e5152ee66dfab; 0xa831c66d2db43210; 0xb00327c898fb213f; 0xbf597fc7beef0ee4;
    0xc6e00bf33da88fc2; 0xd5a79147930aa725; 0x6ca6351e003826f; 0x142929670a0e6e70;
    0x27b70a8546d22ffc; 0x2e1b21385c26c926; 0x4d2c6dfc5ac42aed; 0x53380d139d95b3df;
    0x650a73548baf63de; 0x766a0abb3c77b2a8; 0x81c2c92e47edaee6; 0x92722c851482353b;
    0xa2bfe8a14cf10364; 0xa81a664bbc423001; 0xc24b8b70d0f89791; 0xc76c51a30654be30;
    0xd192e819d6ef5218; 0xd69906245565a910; 0xf40e35855771202a; 0x106aa07032bbd1b8;
    0x19a4c116b8d2d0c8; 0x1e376c085141ab53; 0x2748774cdf8eeb99; 0x34b0bcb5e19b48a8;
    0x391c0cb3c5c95a63; 0x4ed8aa4ae3418acb; 0x5b9cca4f7763e373; 0x682e6ff3d6b2b8a3;
    0x748f82ee5defb2fc; 0x78a5636f43172f60; 0x84c87814a1f0ab72; 0x8cc702081a6439ec;
    0x90befffa23631e28; 0xa4506cebde82bde9; 0xbef9a3f7b2c67915; 0xc67178f2e372532b;
    0xca273eceea26619c; 0xd186b8c721c0c207; 0xeada7dd6cde0eb1e; 0xf57d4f7fee6ed178;
    0x6f067aa72176fba; 0xa637dc5a2c898a6; 0x113f9804bef90dae; 0x1b710b35131c471b;
    0x28db77f523047d84; 0x32caab7b40c72493; 0x3c9ebe0a15c9bebc; 0x431d67c49c100d4c;
    0x4cc5d4becb3e42b6; 0x597f299cfc657e2a; 0x5fcb6fab3ad6faec; 0x6c44198c4a475817 ].
Definition sha512_H0 : list Z :=
  [ 0x6a09e667f3bcc908; 0xbb67ae8584caa73b; 0x3c6ef372fe94f82b; 0xa54ff53a5f1d36f1;
    0x510e527fade682d1; 0x9b05688c2b3e6c1f; 0x1f83d9abfb41bd6b; 0x5be0cd19137e2179 ].
Definition SHA512 : list Z -> list Z :=
  hash_msg 64 128 16 (sha2_next 64 s0_512 s1_512) (sha2_round 64 S0_512 S1_512 sha512_K) 80 sha512_H0.

(** ** HMAC (RFC 2104) with SHA-256: B = 64 *)
Definition hmac_key (K : list Z) : list Z :=
  let K := if zlen K <=? 64 then K else SHA256 K in K ++ repeat 0 (64 - length K).
Definition xor_all (c : Z) (l : list Z) : list Z := map (fun x => Z.lxor x c) l.
Definition HMAC_SHA256 (K text : list Z) : list Z :=
  SHA256 (xor_all 0x5c (hmac_key K) ++ SHA256 (xor_all 0x36 (hmac_key K) ++ text)).

(** ** where the constants come from: k is the first w bits of the fractional part of the e-th root of p *)
Definition frac_root (e w p k : Z) : Prop :=
  0 <= k < 2 ^ w /\ exists c, 0 <= c /\ (c * 2 ^ w + k) ^ e <= p * 2 ^ (e * w) < (c * 2 ^ w + k + 1) ^ e.
Fixpoint no_divisor (n : Z) (ds : list Z) : bool :=
  match ds with [] => true | d :: r => if n mod d =? 0 then false else no_divisor n r end.
Definition is_prime (n : Z) : bool := (2 <=? n) && no_divisor n (map Z.of_nat (seq 2 (Z.to_nat n - 2))).
Definition primes (n : nat) : list Z := firstn n (filter is_prime (map Z.of_nat (seq 0 410))).
