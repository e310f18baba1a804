(** Model of include/cybozu/line_stream.hpp. *)
Require Import Verif.Common Verif.StreamModel Verif.StrOpModel.

(** line_stream.hpp:43-48 members of LineStreamT; next_ is an offset into buf_ *)
Record lstream := mk_ls { ls_is : istream; ls_max : Z; ls_buf : list Z; ls_bufSize : Z; ls_next : Z; ls_eof : bool }.

(** line_stream.hpp:58-66 constructor *)
Definition ls_open (is : istream) (max : Z) : lstream :=
  mk_ls is max (repeat 0 (Z.to_nat (max * 2))) 0 0 false.

(** memchr: offset of the first LF *)
Fixpoint memchr_lf (s : list Z) : option Z :=
  match s with
  | [] => None
  | c :: t => if c =? 10 then Some 0 else match memchr_lf t with Some i => Some (i + 1) | None => None end
  end.
(** the memory range [from, from+n) *)
Definition range (s : list Z) (from n : Z) : res (list Z) :=
  if (from <? 0) || (n <? 0) || (zlen s <? from + n) then UB else Ok (firstn (Z.to_nat n) (skipn (Z.to_nat from) s)).
(** storing bytes at an offset *)
Definition store (s : list Z) (at_ : Z) (d : list Z) : res (list Z) :=
  if (at_ <? 0) || (zlen s <? at_ + zlen d) then UB
  else Ok (firstn (Z.to_nat at_) s ++ d ++ skipn (Z.to_nat (at_ + zlen d)) s).

(** line_stream.hpp:51-56 verifySize: true = no exception *)
Definition verifySize (max : Z) (line : list Z) : bool := negb (max <? zlen line).

(** line_stream.hpp:74-116 next(begin, end): the bytes of [begin, end); None = false.
    The exception leaves the object as it was at the throw. *)
Fixpoint next_loop (fuel : nat) (s : lstream) : res (option (list Z)) * lstream :=
  match fuel with
  | O => (Fuel, s)
  | S f =>
    let remain := ls_bufSize s - ls_next s in
    (* lines 90-112: fetch more data *)
    let fetch s :=
      let buf := ls_buf s in
      let '(got, is') := readSome (zlen buf - ls_bufSize s) (ls_is s) in
      match store buf (ls_bufSize s) got with
      | Ok buf =>
        if zlen got =? 0 then
          let s := mk_ls is' (ls_max s) buf (ls_bufSize s) 0 true in
          if ls_bufSize s =? 0 then (Ok None, s) else
          if ls_max s <? ls_bufSize s then (Exn, s) else
          match range buf 0 (ls_bufSize s) with
          | Ok line => if verifySize (ls_max s) line then (Ok (Some line), s) else (Exn, s)
          | _ => (UB, s)
          end
        else next_loop f (mk_ls is' (ls_max s) buf (ls_bufSize s + zlen got) 0 false)
      | _ => (UB, s)
      end in
    if 0 <? remain then
      match range (ls_buf s) (ls_next s) remain with
      | Ok w =>
        match memchr_lf w with
        | Some i =>
          let endl := ls_next s + i in
          match (if ls_next s <? endl then rd (ls_buf s) (endl - 1) else Ok 0) with
          | Ok c =>
            let e := if (ls_next s <? endl) && (c =? 13) then endl - 1 else endl in
            match range (ls_buf s) (ls_next s) (e - ls_next s) with
            | Ok line =>
              if verifySize (ls_max s) line
              then (Ok (Some line), mk_ls (ls_is s) (ls_max s) (ls_buf s) (ls_bufSize s) (endl + 1) (ls_eof s))
              else (Exn, s)
            | _ => (UB, s)
            end
          | _ => (UB, s)
          end
        | None =>
          match copy_down (Z.to_nat remain) (ls_buf s) 0 (ls_next s) with
          | Ok buf => fetch (mk_ls (ls_is s) (ls_max s) buf remain 0 (ls_eof s))
          | _ => (UB, s)
          end
        end
      | _ => (UB, s)
      end
    else fetch (mk_ls (ls_is s) (ls_max s) (ls_buf s) 0 0 (ls_eof s))
  end.
Definition ls_nextline (s : lstream) : res (option (list Z)) * lstream :=
  if ls_eof s then (Ok None, s) else next_loop (S (S (length (is_data (ls_is s))))) s.

(** line_stream.hpp:133-146 getRemain *)
Definition getRemain (s : lstream) : res (list Z) :=
  if ls_eof s then Ok [] else range (ls_buf s) (ls_next s) (ls_bufSize s - ls_next s).
