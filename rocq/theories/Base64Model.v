(** Model of include/cybozu/base64.hpp. *)
Require Import Verif.Common Verif.Text Verif.StreamModel.

(** base64.hpp:50 the encoding table *)
Definition enc_tbl : list Z := str "ABCDEFGHIJKLMNOPQRSTUVWXYZabcdefghijklmnopqrstuvwxyz0123456789+/".

(** storing a char at outBuf[outBufSize++]; the array has [cap] elements *)
Definition put (cap : Z) (buf : list Z) (c : Z) : res (list Z) :=
  if cap <=? zlen buf then UB else Ok (buf ++ [c]).

(** base64.hpp:26-31 addEndLine; mode: 0 LF, 1 CRLF, 2 none *)
Definition addEndLine (cap : Z) (buf : list Z) (mode : Z) : res (list Z) :=
  if mode =? 2 then Ok buf else
  let! buf := (if mode =? 1 then put cap buf 13 else Ok buf) in
  put cap buf 10.

(** locals of EncodeToBase64: base64.hpp:52-59.  pos is unbounded here; it can wrap in C++ only when
    maxLineSize is 0, and then it is not looked at. *)
Record enc_st := mk_enc { e_remain : Z; e_idx : Z; e_pos : Z; e_buf : list Z }.

(** base64.hpp:64-86 one input byte *)
Definition enc_byte (maxLineSize mode : Z) (s : enc_st) (c : Z) : res enc_st :=
  let! s :=
    (if e_idx s =? 0 then
       let! t := rd enc_tbl (Z.shiftr c 2) in
       let! b := put 4096 (e_buf s) t in
       Ok (mk_enc (Z.shiftl (Z.land c 3) 4) 1 (e_pos s + 1) b)
     else if e_idx s =? 1 then
       let tmp := Z.lor (e_remain s) (Z.shiftr c 4) in
       let! t := rd enc_tbl tmp in
       let! b := put 4096 (e_buf s) t in
       Ok (mk_enc (Z.shiftl (Z.land c 15) 2) 2 (e_pos s + 1) b)
     else
       let! t := rd enc_tbl (Z.lor (e_remain s) (Z.shiftr c 6)) in
       let! b := put 4096 (e_buf s) t in
       let! t := rd enc_tbl (Z.land c 63) in
       let! b := put 4096 b t in
       Ok (mk_enc (e_remain s) 0 (e_pos s + 2) b)) in
  if negb (maxLineSize =? 0) && (e_pos s =? maxLineSize) then
    let! b := addEndLine 4096 (e_buf s) mode in
    Ok (mk_enc (e_remain s) (e_idx s) 0 b)
  else Ok s.

(** base64.hpp:63-87 the loop over inBuf *)
Fixpoint enc_bytes (maxLineSize mode : Z) (s : enc_st) (l : list Z) : res enc_st :=
  match l with
  | [] => Ok s
  | c :: r => let! s := enc_byte maxLineSize mode s c in enc_bytes maxLineSize mode s r
  end.

(** base64.hpp:60-90 read a block, encode it, write the result and empty the buffer *)
Fixpoint enc_loop (fuel : nat) (maxLineSize mode : Z) (s : enc_st) (os : list Z) (is : istream) : res (enc_st * list Z) :=
  match fuel with
  | O => Fuel
  | S f =>
    let (block, is) := readSome 1024 is in
    if zlen block =? 0 then Ok (s, os) else
    let! s := enc_bytes maxLineSize mode s block in
    enc_loop f maxLineSize mode (mk_enc (e_remain s) (e_idx s) (e_pos s) []) (os ++ e_buf s) is
  end.

(** base64.hpp:43-106 EncodeToBase64; the result is what is written to os *)
Definition EncodeToBase64 (maxLineSize mode : Z) (is : istream) : res (list Z) :=
  if (128 <? maxLineSize) || negb (maxLineSize mod 4 =? 0) then Exn else
  let! (s, os) := enc_loop (S (length (is_data is))) maxLineSize mode (mk_enc 0 0 0 []) [] is in
  let! s :=
    (if 0 <? e_idx s then
       let! t := rd enc_tbl (e_remain s) in
       let! b := put 4096 (e_buf s) t in
       let! b := put 4096 b 61 in
       if e_idx s =? 1 then
         let! b := put 4096 b 61 in Ok (mk_enc (e_remain s) (e_idx s) (e_pos s + 3) b)
       else Ok (mk_enc (e_remain s) (e_idx s) (e_pos s + 2) b)
     else Ok s) in
  let! b := (if negb (maxLineSize =? 0) && (0 <? e_pos s) then addEndLine 4096 (e_buf s) mode else Ok (e_buf s)) in
  Ok (os ++ b).

(** base64.hpp:136-154 decoding table *)
Definition S_ := 255.
Definition dec_tbl : list Z :=
  let S := S_ in
  [S; S; S; S; S; S; S; S; S; S; S; S; S; S; S; S;
   S; S; S; S; S; S; S; S; S; S; S; S; S; S; S; S;
   S; S; S; S; S; S; S; S; S; S; S; 62; S; S; S; 63;
   52; 53; 54; 55; 56; 57; 58; 59; 60; 61; S; S; S; S; S; S;
   S; 0; 1; 2; 3; 4; 5; 6; 7; 8; 9; 10; 11; 12; 13; 14;
   15; 16; 17; 18; 19; 20; 21; 22; 23; 24; 25; S; S; S; S; S;
   S; 26; 27; 28; 29; 30; 31; 32; 33; 34; 35; 36; 37; 38; 39; 40;
   41; 42; 43; 44; 45; 46; 47; 48; 49; 50; 51; S; S; S; S; S;
   S; S; S; S; S; S; S; S; S; S; S; S; S; S; S; S;
   S; S; S; S; S; S; S; S; S; S; S; S; S; S; S; S;
   S; S; S; S; S; S; S; S; S; S; S; S; S; S; S; S;
   S; S; S; S; S; S; S; S; S; S; S; S; S; S; S; S;
   S; S; S; S; S; S; S; S; S; S; S; S; S; S; S; S;
   S; S; S; S; S; S; S; S; S; S; S; S; S; S; S; S;
   S; S; S; S; S; S; S; S; S; S; S; S; S; S; S; S;
   S; S; S; S; S; S; S; S; S; S; S; S; S; S; S; S].

(** base64.hpp:112-128 Base64Decoder; [d_os] is what has been written to the output stream *)
Record decoder := mk_dec { d_os : list Z; d_buf : list Z; d_idx : Z; d_cur : Z }.
Definition dec_init : decoder := mk_dec [] [] 0 0.

(** static_cast<char> of an unsigned int, as an unsigned byte *)
Definition to_char (x : Z) : Z := x mod 256.

(** base64.hpp:155-177 one input character; outBuf_ has 1024 elements *)
Definition dec_char (d : decoder) (c : Z) : res decoder :=
  let! t := rd dec_tbl c in
  if t =? S_ then Ok d else
  let! d :=
    (if d_idx d =? 0 then Ok (mk_dec (d_os d) (d_buf d) 1 (Z.shiftl t 2))
     else if d_idx d =? 1 then
       let! b := put 1024 (d_buf d) (to_char (Z.lor (d_cur d) (Z.shiftr t 4))) in
       Ok (mk_dec (d_os d) b 2 (Z.shiftl (Z.land t 15) 4))
     else if d_idx d =? 2 then
       let! b := put 1024 (d_buf d) (to_char (Z.lor (d_cur d) (Z.shiftr t 2))) in
       Ok (mk_dec (d_os d) b 3 (Z.shiftl (Z.land t 3) 6))
     else
       let! b := put 1024 (d_buf d) (to_char (Z.lor (d_cur d) t)) in
       Ok (mk_dec (d_os d) b 0 (d_cur d))) in
  if zlen (d_buf d) =? 1024 then Ok (mk_dec (d_os d ++ d_buf d) [] (d_idx d) (d_cur d)) else Ok d.

(** base64.hpp:134-179 write *)
Fixpoint dec_write (d : decoder) (buf : list Z) : res decoder :=
  match buf with
  | [] => Ok d
  | c :: r => let! d := dec_char d c in dec_write d r
  end.
(** base64.hpp:183-189 flush *)
Definition dec_flush (d : decoder) : decoder :=
  if 0 <? zlen (d_buf d) then mk_dec (d_os d ++ d_buf d) [] (d_idx d) (d_cur d) else d.

(** base64.hpp:198-208 DecodeFromBase64 *)
Fixpoint dec_loop (fuel : nat) (d : decoder) (is : istream) : res decoder :=
  match fuel with
  | O => Fuel
  | S f =>
    let (block, is) := readSome 1024 is in
    if zlen block =? 0 then Ok d else
    let! d := dec_write d block in
    dec_loop f d is
  end.
Definition DecodeFromBase64 (is : istream) : res (list Z) :=
  let! d := dec_loop (S (length (is_data is))) dec_init is in
  Ok (d_os (dec_flush d)).
