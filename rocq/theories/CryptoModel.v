(** Model of include/cybozu/crypto.hpp.  The functions of OpenSSL are parameters with their documented behaviour:
    the digests and HMAC any functions, the block cipher any family of functions on 16-byte blocks. *)
Require Import Verif.Common.

(** a statement returns, throws, or is undefined; the world survives an exception *)
Inductive eff (W A : Type) := Done (a : A) (w : W) | Throw (w : W) | Undef.
Arguments Done {W A}. Arguments Throw {W A}. Arguments Undef {W A}.
Definition ebind {W A B} (m : eff W A) (k : A -> W -> eff W B) : eff W B :=
  match m with Done a w => k a w | Throw w => Throw w | Undef => Undef end.

(** ** class Hash *)
(** crypto.hpp:46-52 enum Name: any int can be cast to it *)
Definition N_SHA1 := 0. Definition N_SHA224 := 1. Definition N_SHA256 := 2. Definition N_SHA384 := 3. Definition N_SHA512 := 4.
(** crypto.hpp:75-86 getSize; None: throws *)
Definition getSize (name : Z) : option Z :=
  match name with 0 => Some 20 | 1 => Some 28 | 2 => Some 32 | 3 => Some 48 | 4 => Some 64 | _ => None end.
Definition s_sha1 := [115; 104; 97; 49].
Definition s_sha224 := [115; 104; 97; 50; 50; 52].
Definition s_sha256 := [115; 104; 97; 50; 53; 54].
Definition s_sha384 := [115; 104; 97; 51; 56; 52].
Definition s_sha512 := [115; 104; 97; 53; 49; 50].
(** crypto.hpp:87-98 getName(Name) *)
Definition getName (name : Z) : option (list Z) :=
  match name with 0 => Some s_sha1 | 1 => Some s_sha224 | 2 => Some s_sha256 | 3 => Some s_sha384 | 4 => Some s_sha512 | _ => None end.
(** crypto.hpp:101-110 the table *)
Definition tbl : list (list Z * Z) := [(s_sha1, N_SHA1); (s_sha224, N_SHA224); (s_sha256, N_SHA256); (s_sha384, N_SHA384); (s_sha512, N_SHA512)].
(** crypto.hpp:99-115 getName(const std::string&) *)
Fixpoint lookup (t : list (list Z * Z)) (s : list Z) : option Z :=
  match t with [] => None | (k, n) :: t => if list_eq_dec Z.eq_dec s k then Some n else lookup t s end.
Definition fromName (s : list Z) : option Z := lookup tbl s.

(** an EVP_MD_CTX: freed, fresh, or initialised for a digest with the data so far *)
Inductive ctx := Freed | Fresh | Init (md : Z) (data : list Z).
Definition world := list ctx.

Section Evp.
(** the digest functions of the library, and which it offers *)
Variable H : Z -> list Z -> list Z.
Variable avail : Z -> bool.

(** crypto.hpp:58-66 setCTX; p = None: null pointer (EVP_DigestInit_ex needs a context) *)
Definition setCTX (w : world) (p : option nat) (name : Z) : eff world unit :=
  if avail name then
    match p with
    | None => Undef
    | Some p => match nth_error w p with Some Freed | None => Undef | Some _ => Done tt (upd w p (Init name [])) end
    end
  else Throw w.
Record hash := mk_hash { name_ : Z; hashSize_ : Z; ctx_ : option nat }.
(** crypto.hpp:149-168 reset: the string handed to setCTX names the same digest *)
Definition reset (w : world) (h : hash) : eff world unit :=
  match name_ h with 0 | 1 | 2 | 3 | 4 => setCTX w (ctx_ h) (name_ h) | _ => Throw w end.
(** crypto.hpp:116-124 constructor; alloc: EVP_MD_CTX_new succeeds *)
Definition hash_new (w : world) (alloc : bool) (name : Z) : eff world hash :=
  match getSize name with
  | None => Throw w
  | Some size =>
    let (p, w) := if alloc then (Some (length w), w ++ [Fresh]) else (None, w) in
    let h := mk_hash name size p in
    ebind (reset w h) (fun _ w => Done h w)
  end.
(** crypto.hpp:126-129 destructor: EVP_MD_CTX_free accepts a null pointer *)
Definition hash_del (w : world) (h : hash) : eff world unit :=
  match ctx_ h with
  | None => Done tt w
  | Some p => match nth_error w p with Some Freed | None => Undef | Some _ => Done tt (upd w p Freed) end
  end.
(** the implicit copy constructor *)
Definition hash_copy (h : hash) : hash := h.
(** crypto.hpp:131-144 update *)
Definition update (w : world) (h : hash) (buf : list Z) : eff world unit :=
  match ctx_ h with
  | None => Undef
  | Some p => match nth_error w p with Some (Init md d) => Done tt (upd w p (Init md (d ++ buf))) | _ => Undef end
  end.
(** EVP_DigestFinal_ex: the digest; the context can only be initialised again (or freed) *)
Definition final (w : world) (p : nat) : eff world (list Z) :=
  match nth_error w p with Some (Init md d) => Done (H md d) (upd w p Fresh) | _ => Undef end.
(** crypto.hpp:173-192 digest(void *out, buf, bufSize) into a buffer of the given contents *)
Definition digest (w : world) (h : hash) (out buf : list Z) : eff world (list Z) :=
  ebind (update w h buf) (fun _ w =>
  match ctx_ h with
  | None => Undef
  | Some p => ebind (final w p) (fun md w =>
      if zlen out <? zlen md then Undef else
      let out := md ++ skipn (length md) out in
      ebind (reset w h) (fun _ w => Done out w))
  end).
(** crypto.hpp:193-199 digest(buf, bufSize): std::string of hashSize_ bytes *)
Definition digest_str (w : world) (h : hash) (buf : list Z) : eff world (list Z) := digest w h (repeat 0 (Z.to_nat (hashSize_ h))) buf.
(** crypto.hpp:208-213 static digest(out, name, buf, bufSize): a local Hash, also destroyed on an exception *)
Definition digest_static (w : world) (alloc : bool) (out : list Z) (name : Z) (buf : list Z) : eff world (list Z * Z) :=
  ebind (hash_new w alloc name) (fun h w =>
  match digest w h out buf with
  | Done out w => ebind (hash_del w h) (fun _ w => match getSize name with Some n => Done (out, n) w | None => Throw w end)
  | Throw w => ebind (hash_del w h) (fun _ w => Throw w)
  | Undef => Undef
  end).
(** crypto.hpp:228-234 static digest(name, buf, bufSize): char md[128] (contents junk) *)
Definition digest_of (w : world) (alloc : bool) (junk : list Z) (name : Z) (buf : list Z) : eff world (list Z) :=
  ebind (digest_static w alloc (firstn 128 junk) name buf) (fun '(md, size) w =>
  if size =? 0 then Throw w else Done (firstn (Z.to_nat size) md) w).

(** a use of one object *)
Inductive hop := Update (d : list Z) | Digest (d : list Z) | Reset.
Fixpoint hash_run (w : world) (h : hash) (l : list hop) (outs : list (list Z)) : eff world (list (list Z)) :=
  match l with
  | [] => Done outs w
  | Update d :: l => ebind (update w h d) (fun _ w => hash_run w h l outs)
  | Digest d :: l => ebind (digest_str w h d) (fun r w => hash_run w h l (outs ++ [r]))
  | Reset :: l => ebind (reset w h) (fun _ w => hash_run w h l outs)
  end.
(** declare, use, leave the scope *)
Definition hash_scope (w : world) (name : Z) (l : list hop) : eff world (list (list Z)) :=
  ebind (hash_new w true name) (fun h w =>
  ebind (hash_run w h l []) (fun outs w =>
  ebind (hash_del w h) (fun _ w => Done outs w))).
End Evp.

(** ** class Hash where CYBOZU_USE_OPENSSL_NEW_HASH is not 1: a union of three contexts.
    USha1 and so on: which member was initialised last, by which digest, with the data so far *)
Inductive uctx := UNone | USha1 (d : list Z) | USha256 (md : Z) (d : list Z) | USha512 (md : Z) (d : list Z).
(** crypto.hpp:159-163 *)
Definition u_reset (name : Z) : option uctx :=
  match name with
  | 0 => Some (USha1 []) | 1 => Some (USha256 N_SHA224 []) | 2 => Some (USha256 N_SHA256 [])
  | 3 => Some (USha512 N_SHA384 []) | 4 => Some (USha512 N_SHA512 []) | _ => None
  end.
(** crypto.hpp:136-142: the member of the name; another member than the one initialised is undefined *)
Definition u_update (name : Z) (c : uctx) (buf : list Z) : res uctx :=
  match name, c with
  | 0, USha1 d => Ok (USha1 (d ++ buf))
  | 1, USha256 m d => Ok (USha256 m (d ++ buf))
  | 2, USha256 m d => Ok (USha256 m (d ++ buf))
  | 3, USha512 m d => Ok (USha512 m (d ++ buf))
  | 4, USha512 m d => Ok (USha512 m (d ++ buf))
  | 0, _ | 1, _ | 2, _ | 3, _ | 4, _ => UB
  | _, c => Ok c
  end.
(** crypto.hpp:181-191: the length of the digest is that of the initialisation (md_len of the context) *)
Definition u_digest (H : Z -> list Z -> list Z) (name : Z) (c : uctx) (buf : list Z) : res (list Z * uctx) :=
  let! c := u_update name c buf in
  let! md := match name, c with
    | 0, USha1 d => Ok (H N_SHA1 d)
    | 1, USha256 m d => Ok (H m d)
    | 2, USha256 m d => Ok (H m d)
    | 3, USha512 m d => Ok (H m d)
    | 4, USha512 m d => Ok (H m d)
    | 0, _ | 1, _ | 2, _ | 3, _ | 4, _ => UB
    | _, _ => Exn
    end in
  match u_reset name with Some c => Ok (md, c) | None => Exn end.
Fixpoint u_run (H : Z -> list Z -> list Z) (name : Z) (c : uctx) (l : list hop) : res (list (list Z)) :=
  match l with
  | [] => Ok []
  | Update d :: l => let! c := u_update name c d in u_run H name c l
  | Digest d :: l => let! (r, c) := u_digest H name c d in let! rs := u_run H name c l in Ok (r :: rs)
  | Reset :: l => match u_reset name with Some c => u_run H name c l | None => Exn end
  end.

(** ** class Hmac *)
(** static_cast<int>(size_t) *)
Definition to_int (n : Z) : Z := let m := n mod 4294967296 in if m <? 2147483648 then m else m - 4294967296.
(** crypto.hpp:244-266; HMAC reads key_len bytes of the key and fails for a negative length *)
Definition hmac_eval (M : Z -> list Z -> list Z -> list Z) (name : Z) (key data : list Z) : res (list Z) :=
  match getSize name with
  | None => Exn
  | Some size =>
    let out := repeat 0 (Z.to_nat (size + 1)) in
    let klen := to_int (zlen key) in
    if klen <? 0 then Exn else
    let md := M name (firstn (Z.to_nat klen) key) data in
    if zlen out <? zlen md then UB else
    Ok (firstn (length md) (md ++ skipn (length md) out))
  end.

(** ** class Cipher *)
(** crypto.hpp:273-280 enum Name; crypto.hpp:281-293 getSize (bits) *)
Definition cipherSize (name : Z) : option Z :=
  match name with 0 => Some 128 | 1 => Some 192 | 2 => Some 256 | 3 => Some 128 | 4 => Some 192 | 5 => Some 256 | _ => None end.
(** EVP_CIPHER_key_length of the cipher chosen by the constructor, crypto.hpp:298-314 *)
Definition keyLength (name : Z) : option Z :=
  match name with 0 => Some 16 | 1 => Some 24 | 2 => Some 32 | 3 => Some 16 | 4 => Some 24 | 5 => Some 32 | _ => None end.
Definition isCbc (name : Z) : bool := name <? 3.

Section Cipher.
(** the block cipher: key, 16 bytes -> 16 bytes; both directions *)
Variables Enc Dec : list Z -> list Z -> list Z.
Definition xor (a b : list Z) : list Z := map (fun '(x, y) => Z.lxor x y) (combine a b).

(** EVP_CIPHER_CTX after EVP_CipherInit_ex: chaining block, pending input *)
Record cst := mk_c { cbc : bool; enc : bool; pad : bool; ckey : list Z; prev : list Z; pend : list Z }.
(** crypto.hpp:322-345 setup.  EVP_CipherInit_ex reads the key and, for CBC, 16 bytes at iv.c_str() (which has a 0 after
    the iv.size() bytes) *)
Definition setup (name : Z) (encoding : bool) (key iv : list Z) (padding : bool) : res cst :=
  match keyLength name with
  | None => Exn
  | Some n =>
    if negb (to_int (zlen key) =? n) then Exn else
    if zlen key <? n then UB else
    if isCbc name then
      if zlen iv + 1 <? 16 then UB else Ok (mk_c true encoding padding (firstn (Z.to_nat n) key) (firstn 16 (iv ++ [0])) [])
    else Ok (mk_c false encoding padding (firstn (Z.to_nat n) key) [] [])
  end.
(** one block *)
Definition block (c : cst) (b : list Z) : list Z * cst :=
  if enc c then
    let o := Enc (ckey c) (if cbc c then xor b (prev c) else b) in
    (o, mk_c (cbc c) (enc c) (pad c) (ckey c) (if cbc c then o else prev c) (pend c))
  else
    let o := Dec (ckey c) b in
    (if cbc c then xor o (prev c) else o, mk_c (cbc c) (enc c) (pad c) (ckey c) (if cbc c then b else prev c) (pend c)).
(** all complete blocks of the pending input; a decryption with padding keeps the last one back *)
Definition ready (c : cst) : bool := if pad c && negb (enc c) then 17 <=? zlen (pend c) else 16 <=? zlen (pend c).
Fixpoint drain (n : nat) (c : cst) : list Z * cst :=
  match n with
  | O => ([], c)
  | S n =>
    if ready c then
      let (o, c') := block c (firstn 16 (pend c)) in
      let (r, c'') := drain n (mk_c (cbc c') (enc c') (pad c') (ckey c') (prev c') (skipn 16 (pend c))) in (o ++ r, c'')
    else ([], c)
  end.
(** crypto.hpp:351-357 update (EVP_CipherUpdate); the result and its length are the bytes written *)
Definition c_update (c : cst) (inp : list Z) : list Z * cst :=
  let c := mk_c (cbc c) (enc c) (pad c) (ckey c) (prev c) (pend c ++ inp) in drain (S (length (pend c))) c.
(** the last n bytes of the padding: PKCS#7 *)
Definition pkcs (n : Z) : list Z := repeat (16 - n) (Z.to_nat (16 - n)).
(** crypto.hpp:362-368 finalize (EVP_CipherFinal_ex); None: -1 *)
Definition c_final (c : cst) : option (list Z) :=
  if negb (pad c) then (if zlen (pend c) =? 0 then Some [] else None)
  else if enc c then Some (fst (block c (pend c ++ pkcs (zlen (pend c)))))
  else if zlen (pend c) =? 16 then
    let o := fst (block c (pend c)) in
    let n := nth 15 o 0 in
    if (n <=? 0) || (16 <? n) then None
    else if list_eq_dec Z.eq_dec (skipn (16 - Z.to_nat n) o) (repeat n (Z.to_nat n)) then Some (firstn (16 - Z.to_nat n) o) else None
  else None.
(** update for each piece, then finalize *)
Fixpoint c_run (c : cst) (l : list (list Z)) : list Z * option (list Z) :=
  match l with
  | [] => ([], c_final c)
  | p :: l => let (o, c) := c_update c p in let (r, f) := c_run c l in (o ++ r, f)
  end.
End Cipher.
