(** Model of the calls of cybozu::RandomGenerator (include/cybozu/random_generator.hpp, non-Windows) over their whole history, on a device
    that may deliver less than it is asked for, and of shuffle drawing from it.  Built on rg_read of RandModel.v. *)
Require Import Verif.Common Verif.EndianModel Verif.RandModel.

(** The FILE opened on /dev/urandom: the bytes it still has to give, and for the next calls of fread how many bytes each can get before an
    error; after the end of that list only the end of the bytes stops a call. *)
Record dev := Dev { d_rest : list Z; d_lim : list nat }.
Definition deliverable (d : dev) : list Z := match d_lim d with [] => d_rest d | k :: _ => firstn k (d_rest d) end.

(** random_generator.hpp:72-78: None when fopen failed and the constructor threw *)
Definition rgd_open (fopen_ok : bool) (d : dev) : option dev := if fopen_ok then Some d else None.
(** random_generator.hpp:87-97: read(bool *pb, T *buf, size_t bufNum), sz = sizeof(T); the FILE moves on by the bytes stored.
    fp_ is not null: the constructor threw otherwise *)
Definition rgd_read (sz n : Z) (buf : list Z) (d : dev) : res (bool * list Z * dev) :=
  let byteSize := (sz * n) mod 2 ^ 64 in
  let data := deliverable d in
  let! (b, buf) := rg_read true data buf byteSize in
  Ok (b, buf, Dev (skipn (Z.to_nat (Z.min (int_to_size byteSize) (zlen data))) (d_rest d)) (tl (d_lim d))).

(** the value of an integer object with the given bytes *)
Definition object_value (little : bool) (b : list Z) : Z := of_le (if little then b else rev b).

Section Host.
Variable little : bool.
(** random_generator.hpp:109-114, 115-120, 121-124 get32, get64, operator(): ret is uninitialised, its bytes are [garbage]; the throwing
    read of 102-108 leaves the function, None *)
Definition rgd_get (k : Z) (garbage : list Z) (d : dev) : res (option Z * dev) :=
  let! (b, buf, d) := rgd_read k 1 garbage d in
  Ok (if b then Some (object_value little buf) else None, d).
Definition rgd_get32 := rgd_get 4.
Definition rgd_get64 := rgd_get 8.

(** one call by a user *)
Inductive op := Get32 | Get64 | Fill (sz n : Z) (buf : list Z).
(** what it gave: a number; the filled buffer; an exception, with what is in the user's buffer then *)
Inductive reply := Value (x : Z) | Buffer (b : list Z) | Thrown (b : list Z).
Definition rgd_call (garbage : list Z) (o : op) (d : dev) : res (reply * dev) :=
  match o with
  | Get32 => let! (x, d) := rgd_get32 (firstn 4 garbage) d in Ok (match x with Some x => Value x | None => Thrown [] end, d)
  | Get64 => let! (x, d) := rgd_get64 garbage d in Ok (match x with Some x => Value x | None => Thrown [] end, d)
  | Fill sz n buf => let! (b, buf, d) := rgd_read sz n buf d in Ok (if b : bool then Buffer buf else Thrown buf, d)
  end.
(** calls one after the other, the user catching every exception; the i-th call finds (garbage i) on the stack *)
Fixpoint rgd_run (garbage : nat -> list Z) (os : list op) (d : dev) : res (list reply * dev) :=
  match os with
  | [] => Ok ([], d)
  | o :: os =>
    let! (r, d) := rgd_call (garbage O) o d in
    let! (rs, d) := rgd_run (fun i => garbage (S i)) os d in
    Ok (r :: rs, d)
  end.

(** random_generator.hpp:131-135 with rg.get64() throwing: false, and the array as it is then *)
Fixpoint shuffle_dev_loop {A} (garbage : nat -> list Z) (k : nat) (i n : Z) (v : list A) (d : dev) : res (bool * list A * dev) :=
  match k with
  | O => Ok (true, v, d)
  | S k =>
    let! (u, d) := rgd_get64 (garbage O) d in
    match u with
    | None => Ok (false, v, d)
    | Some u =>
      let r := i + u mod (n - i) in
      let! v := swap_at v i r in
      shuffle_dev_loop (fun i => garbage (S i)) k (i + 1) n v d
    end
  end.
(** random_generator.hpp:127-143 *)
Definition shuffle_dev {A} (garbage : nat -> list Z) (v : list A) (d : dev) : res (bool * list A * dev) :=
  let n := zlen v in
  if n <=? 1 then Ok (true, v, d) else shuffle_dev_loop garbage (Z.to_nat (n - 1)) 0 n v d.
End Host.
