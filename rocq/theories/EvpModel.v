(** Model of the classes Sha256 and Sha512 of include/cybozu/sha2.hpp in its three builds: on EVP_MD_CTX of OpenSSL (the default),
    on SHA256_CTX/SHA512_CTX of OpenSSL (CYBOZU_USE_OPENSSL_NEW_HASH != 1) and built in (ShaModel), and of hmac256 on EVP_MD_CTX.
    OpenSSL is trusted to compute SHA-256 and SHA-512 (ShaSpec) of the bytes given since the last init, to know both names and not to
    run out of memory.  Asserts are off. *)
Require Import Verif.Common Verif.Text Verif.ConfigModel Verif.ItoaModel Verif.ShaModel Verif.ShaSpec.

Inductive alg := A256 | A512.
(** what OpenSSL computes *)
Definition openssl (a : alg) (m : list Z) : list Z := match a with A256 => SHA256 m | A512 => SHA512 m end.
(** the template argument MD_SIZE_ (sha2.hpp:92, 155), SHA256_DIGEST_LENGTH, SHA512_DIGEST_LENGTH *)
Definition MD_SIZE (a : alg) : Z := match a with A256 => 32 | A512 => 64 end.

(** what a program does with objects, which are numbered in the order of construction *)
Inductive dop :=
| DNew (a : alg)                       (* Sha256 x; Sha512 x; *)
| DCopy (i : nat)                      (* a copy, by the implicit copy constructor *)
| DClear (i : nat)
| DUpdate (i : nat) (buf : list Z)     (* both overloads: sha2.hpp:112-119, 132-135, 175-182, 195-198 *)
| DDigest (i : nat) (md buf : list Z)  (* md: the buffer of mdSize bytes *)
| DDigestStr (i : nat) (buf : list Z)  (* both overloads: sha2.hpp:136-149, 199-212 *)
| DDelete (i : nat).
Inductive dres := RNone | RBuf (md : list Z) (ret : Z) | RStr (md : list Z).
Definition get {A} (l : list (option A)) (i : nat) : res A := match nth_error l i with Some (Some x) => Ok x | _ => UB end.

(** ** on EVP_MD_CTX *)
(** an EVP_MD_CTX: without an algorithm; after EVP_DigestInit_ex; after EVP_DigestFinal_ex *)
Inductive evp := ENone | EOn (a : alg) (m : list Z) | EOver.
(** EVP_get_digestbyname *)
Definition digestbyname (name : list Z) : option alg :=
  if str_eq name (str "sha256") then Some A256 else if str_eq name (str "sha512") then Some A512 else None.
(** EVP_DigestUpdate; after EVP_DigestFinal_ex it fails (OpenSSL 3) *)
Definition evp_update (c : evp) (buf : list Z) : res evp :=
  match c with EOn a m => Ok (EOn a (m ++ buf)) | EOver => Ok EOver | ENone => UB end.
(** EVP_DigestFinal_ex: the bytes it writes; a second time it fails and writes nothing (OpenSSL 3) *)
Definition evp_final (c : evp) : res (list Z * evp) :=
  match c with EOn a m => Ok (openssl a m, EOver) | EOver => Ok ([], EOver) | ENone => UB end.
(** sha2.hpp:50-53 struct NewHash: mdctx_, md_; and the class it is a member of *)
Record hobj := mk_hobj { o_cls : alg; o_ctx : nat; o_md : option alg }.
(** the contexts (None: freed), the objects (None: destroyed) *)
Definition evps := (list (option evp) * list (option hobj))%type.
(** sha2.hpp:67-71 NewHash::clear *)
Definition nh_clear (h : list (option evp)) (o : hobj) : res (list (option evp)) :=
  let! _ := get h (o_ctx o) in
  match o_md o with Some a => Ok (upd h (o_ctx o) (Some (EOn a []))) | None => UB end.
(** sha2.hpp:72-75 NewHash::update *)
Definition nh_update (h : list (option evp)) (o : hobj) (buf : list Z) : res (list (option evp)) :=
  let! c := get h (o_ctx o) in
  let! c := evp_update c buf in
  Ok (upd h (o_ctx o) (Some c)).
(** sha2.hpp:76-84 NewHash::digest: md afterwards, the returned size *)
Definition nh_digest (h : list (option evp)) (o : hobj) (md buf : list Z) : res (list Z * Z * list (option evp)) :=
  if zlen md <? MD_SIZE (o_cls o) then Ok (md, 0, h) else
  let! h := nh_update h o buf in
  let! c := get h (o_ctx o) in
  let! (d, c) := evp_final c in
  let! md := memcpy_at md 0 d in
  Ok (md, MD_SIZE (o_cls o), upd h (o_ctx o) (Some c)).
(** sha2.hpp:63-66 ~NewHash *)
Definition nh_free (h : list (option evp)) (o : hobj) : res (list (option evp)) :=
  let! _ := get h (o_ctx o) in Ok (upd h (o_ctx o) None).
(** sha2.hpp:54-62, 97-103, 160-166 the constructors *)
Definition nh_new (h : list (option evp)) (a : alg) : res (list (option evp) * hobj) :=
  let o := mk_hobj a (length h) (digestbyname (match a with A256 => str "sha256" | A512 => str "sha512" end)) in
  let! h := nh_clear (h ++ [Some ENone]) o in
  Ok (h, o).
(** sha2.hpp:90-214 class Sha256, class Sha512 *)
Definition evp_step (s : evps) (op : dop) : res (evps * dres) :=
  let (h, os) := s in
  match op with
  | DNew a => let! (h, o) := nh_new h a in Ok ((h, os ++ [Some o]), RNone)
  | DCopy i => let! o := get os i in Ok ((h, os ++ [Some o]), RNone)
  | DClear i => let! o := get os i in let! h := nh_clear h o in Ok ((h, os), RNone)
  | DUpdate i buf => let! o := get os i in let! h := nh_update h o buf in Ok ((h, os), RNone)
  | DDigest i md buf => let! o := get os i in let! (md, n, h) := nh_digest h o md buf in Ok ((h, os), RBuf md n)
  | DDigestStr i buf =>
    let! o := get os i in
    let! (md, _, h) := nh_digest h o (repeat 0 (Z.to_nat (MD_SIZE (o_cls o)))) buf in
    Ok ((h, os), RStr md)
  | DDelete i => let! o := get os i in let! h := nh_free h o in Ok ((h, upd os i None), RNone)
  end.

(** ** on SHA256_CTX and SHA512_CTX, which are values: the bytes since SHAxxx_Init; None: after SHAxxx_Final *)
Definition ctx := (alg * option (list Z))%type.
(** SHA256_Update, SHA512_Update; what they do after SHAxxx_Final is not said *)
Definition old_update (c : ctx) (buf : list Z) : res ctx :=
  match c with (a, Some m) => Ok (a, Some (m ++ buf)) | (_, None) => UB end.
(** sha2.hpp:120-130, 183-193 digest *)
Definition old_digest (c : ctx) (md buf : list Z) : res (list Z * Z * ctx) :=
  if zlen md <? MD_SIZE (fst c) then Ok (md, 0, c) else
  let! c := old_update c buf in
  match c with
  | (a, Some m) => let! md := memcpy_at md 0 (openssl a m) in Ok (md, MD_SIZE a, (a, None))
  | (_, None) => UB
  end.
(** sha2.hpp:90-214 *)
Definition old_step (os : list (option ctx)) (op : dop) : res (list (option ctx) * dres) :=
  match op with
  | DNew a => Ok (os ++ [Some (a, Some [])], RNone)
  | DCopy i => let! c := get os i in Ok (os ++ [Some c], RNone)
  | DClear i => let! c := get os i in Ok (upd os i (Some (fst c, Some [])), RNone)
  | DUpdate i buf => let! c := get os i in let! c := old_update c buf in Ok (upd os i (Some c), RNone)
  | DDigest i md buf => let! c := get os i in let! (md, n, c) := old_digest c md buf in Ok (upd os i (Some c), RBuf md n)
  | DDigestStr i buf =>
    let! c := get os i in
    let! (md, _, c) := old_digest c (repeat 0 (Z.to_nat (MD_SIZE (fst c)))) buf in
    Ok (upd os i (Some c), RStr md)
  | DDelete i => let! _ := get os i in Ok (upd os i None, RNone)
  end.

(** ** built in *)
Section Own.
Variables (little : bool) (junk : Z).
Definition own_new (a : alg) : sha := match a with A256 => sha256_new junk | A512 => sha512_new junk end.
Definition own_clear (a : alg) (s : sha) : sha := match a with A256 => sha256_clear (s_buf s) | A512 => sha512_clear (s_buf s) end.
Definition own_update (a : alg) : sha -> list Z -> res sha := match a with A256 => sha256_update little junk | A512 => sha512_update little junk end.
Definition own_digest (a : alg) : sha -> list Z -> list Z -> res (list Z * Z * sha) :=
  match a with A256 => sha256_digest little junk | A512 => sha512_digest little junk end.
(** sha2.hpp:297-431, 433-569 *)
Definition own_step (os : list (option (alg * sha))) (op : dop) : res (list (option (alg * sha)) * dres) :=
  match op with
  | DNew a => Ok (os ++ [Some (a, own_new a)], RNone)
  | DCopy i => let! c := get os i in Ok (os ++ [Some c], RNone)
  | DClear i => let! (a, s) := get os i in Ok (upd os i (Some (a, own_clear a s)), RNone)
  | DUpdate i buf => let! (a, s) := get os i in let! s := own_update a s buf in Ok (upd os i (Some (a, s)), RNone)
  | DDigest i md buf => let! (a, s) := get os i in let! (md, n, s) := own_digest a s md buf in Ok (upd os i (Some (a, s)), RBuf md n)
  | DDigestStr i buf =>
    let! (a, s) := get os i in
    let! (md, _, s) := own_digest a s (repeat 0 (Z.to_nat (MD_SIZE a))) buf in
    Ok (upd os i (Some (a, s)), RStr md)
  | DDelete i => let! _ := get os i in Ok (upd os i None, RNone)
  end.

(** sha2.hpp:581-607 hmac256 with the Sha256 of the EVP build; hmac is the 32-byte output buffer.  The result has the contexts
    (there are none before the call) after the destructor of hash *)
Definition evp_hmac256 (hmac key msg : list Z) : res (list Z * list (option evp)) :=
  let k := repeat junk 64 in
  let! (h, hash) := nh_new [] A256 in
  let! (k, h, keySize) :=
    (if 64 <? zlen key then
      let! (d, _, h) := nh_digest h hash (firstn 32 k) key in
      let! k := memcpy_at k 0 d in
      let! h := nh_clear h hash in
      Ok (k, h, 32)
    else let! k := memcpy_at k 0 key in Ok (k, h, zlen key)) in
  let! k := xor_bytes (Z.to_nat keySize) 0 54 k in
  let! k := memcpy_at k keySize (repeat 54 (Z.to_nat (64 - keySize))) in
  let! h := nh_update h hash k in
  let! (hmac, _, h) := nh_digest h hash hmac msg in
  let! h := nh_clear h hash in
  let! k := xor_bytes 64 0 (Z.lxor 54 92) k in
  let! h := nh_update h hash k in
  let! (hmac, _, h) := nh_digest h hash hmac hmac in
  let! h := nh_free h hash in
  Ok (hmac, h).
End Own.

(** a program: the results of its calls and the state at its end *)
Fixpoint run {S} (step : S -> dop -> res (S * dres)) (s : S) (ops : list dop) : res (list dres * S) :=
  match ops with
  | [] => Ok ([], s)
  | op :: r => let! (s, x) := step s op in let! (xs, s) := run step s r in Ok (x :: xs, s)
  end.
