(** Model of the rest of include/cybozu/option.hpp: the variables bound to an Option (addresses), isSet, operator<<, toStr, copies of
    Var and Option, the growth of its vectors, getBaseName, clearDelimiterList.  The part that parses is OptionModel. *)
Require Import Verif.Common Verif.Text Verif.ConfigModel Verif.OptionModel.
From Coq Require String.
Import ListNotations.
Local Open Scope Z_scope.

(** option.hpp:191-280, 339-352: an Option with the address each Info is bound to; 0 in b_rest: remains_ has no Holder.
    The capacities of infoVec_ and paramVec_ are those of the std::vector. *)
Record bopt := mk_b { b_core : opt; b_infos : list Z; b_params : list Z; b_rest : Z; b_cap : Z; b_pcap : Z }.
(** option.hpp:395-402 *)
Definition b_new : bopt := mk_b opt_new [] [] 0 0 0.
(** option.hpp:257 the copy constructor of Var: the copy is not set *)
Definition copy_info (i : info) : info := mk_info (i_name i) (i_mode i) (i_must i) (i_acc i) false (i_got i).
(** push_back: when the vector is full its elements are copied (Var has no move constructor); libstdc++ doubles *)
Definition grown (n cap : Z) : Z := if n <? cap then cap else Z.max 1 (2 * n).
Definition moved (n cap : Z) (l : list info) : list info := if n <? cap then l else map copy_info l.
(** option.hpp:353-363 appendSub, as used by 365-370, 417-452 *)
Definition b_append (b : bopt) (p : Z) (m : mode) (must : bool) (name : list Z) (acc : list Z -> bool) : res bopt :=
  let! o := appendSub (b_core b) m must name acc in
  let n := zlen (o_infos (b_core b)) in
  let old := moved n (b_cap b) (o_infos (b_core b)) in
  Ok (mk_b (set_infos o (old ++ skipn (length old) (o_infos o))) (b_infos b ++ [p]) (b_params b) (b_rest b) (grown n (b_cap b)) (b_pcap b)).
(** option.hpp:459-480 appendParam, appendParamOpt *)
Definition b_param (b : bopt) (p : Z) (must : bool) (name : list Z) (acc : list Z -> bool) : res bopt :=
  let! o := (if must then appendParam (b_core b) name acc else appendParamOpt (b_core b) name acc) in
  let n := zlen (o_params (b_core b)) in
  let old := moved n (b_pcap b) (o_params (b_core b)) in
  Ok (mk_b (set_params o (old ++ skipn (length old) (o_params o))) (b_infos b) (b_params b ++ [p]) (b_rest b) (b_cap b) (grown n (b_pcap b))).
(** option.hpp:487-498 appendParamVec *)
Definition b_paramVec (b : bopt) (p : Z) (name : list Z) (acc : list Z -> bool) : res bopt :=
  let! o := appendParamVec (b_core b) name acc in Ok (mk_b o (b_infos b) (b_params b) p (b_cap b) (b_pcap b)).
(** option.hpp:499-503, 509-521 *)
Definition b_help (b : bopt) (name : list Z) : bopt := mk_b (appendHelp (b_core b) name) (b_infos b) (b_params b) (b_rest b) (b_cap b) (b_pcap b).
Definition b_delim (b : bopt) (d : list Z) (keep : bool) : bopt := mk_b (setDelimiter (b_core b) d keep) (b_infos b) (b_params b) (b_rest b) (b_cap b) (b_pcap b).
(** option.hpp:525 *)
Definition b_clear (b : bopt) : bopt :=
  mk_b (clearDelimiterList (b_core b)) (b_infos b) (b_params b) (b_rest b) (b_cap b) (b_pcap b).
(** option.hpp:538-656: parse changes the Infos in place *)
Definition b_parse (b : bopt) (argv : list (list Z)) : res (option bopt) :=
  let! r := parse (b_core b) argv 1 false in
  Ok (match r with PTrue o _ _ => Some (mk_b o (b_infos b) (b_params b) (b_rest b) (b_cap b) (b_pcap b)) | _ => None end).

(** option.hpp:730-733, 735-738: the first Info bound to p *)
Fixpoint look (ps : list Z) (l : list info) (p : Z) : option bool :=
  match ps, l with
  | a :: ps, i :: l => if a =? p then Some (i_set i) else look ps l p
  | _, _ => None
  end.
(** option.hpp:726-740 isSet *)
Definition isSet (b : bopt) (p : Z) : res bool :=
  match look (b_params b) (o_params (b_core b)) p with
  | Some x => Ok x
  | None =>
      if b_rest b =? p then Ok (i_set (o_remains (b_core b))) else
      match look (b_infos b) (o_infos (b_core b)) p with Some x => Ok x | None => Exn end
  end.
(** the implicit copy constructor of Option: option.hpp:257 dereferences p_ of every Var, also of remains_ *)
Definition copy (b : bopt) : res bopt :=
  if b_rest b =? 0 then UB else
  let o := b_core b in
  Ok (mk_b (mk_opt (map copy_info (o_infos o)) (map copy_info (o_params o)) (o_pmode o) (copy_info (o_remains o)) (o_help o) (o_delims o) (o_keep o))
        (b_infos b) (b_params b) (b_rest b) (zlen (o_infos o)) (zlen (o_params o))).

(** ** Printing; [show] gives the text Holder::toStr (option.hpp:205-210, 233-246) makes of the variable at an address *)
Definition endl : list Z := [10].
(** option.hpp:311-320 *)
Definition put_info (show : Z -> list Z) (p : Z) (i : info) : list Z :=
  i_name i ++ [61] ++ show p ++ (if i_set i then str " (set)" else str " (default)").
Fixpoint put_infos (show : Z -> list Z) (ps : list Z) (l : list info) : list Z :=
  match ps, l with p :: ps, i :: l => put_info show p i ++ endl ++ put_infos show ps l | _, _ => [] end.
(** option.hpp:707-710 *)
Fixpoint put_params (show : Z -> list Z) (ps : list Z) (l : list info) : list Z :=
  match ps, l with p :: ps, i :: l => i_name i ++ [61] ++ show p ++ endl ++ put_params show ps l | _, _ => [] end.
(** option.hpp:705-718 operator<<; toStr of a Var without Holder is empty (276) *)
Definition put (show : Z -> list Z) (b : bopt) : list Z :=
  let o := b_core b in
  put_params show (b_params b) (o_params o) ++
  (match o_pmode o with P_variable => str "remains=" ++ (if b_rest b =? 0 then [] else show (b_rest b)) ++ endl | _ => [] end) ++
  put_infos show (b_infos b) (o_infos o).

(** option.hpp:158-170 convertToStr of an integer variable: [dec] is what operator<< of the stream makes of an integer *)
Definition int_toStr (dec : Z -> list Z) (x : Z) : list Z := dec x.
(** option.hpp:233-246 toStr of a vector; an element of type int8_t or uint8_t is a character for operator<< *)
Fixpoint join (l : list (list Z)) : list Z :=
  match l with [] => [] | [x] => x | x :: r => x ++ [32] ++ join r end.
Definition vec_toStr (dec : Z -> list Z) (bits : Z) (l : list Z) : list Z := join (map (fun x => if bits =? 8 then [x mod 256] else dec x) l).

(** option.hpp:385-390 getBaseName; find_last_of("/\\") *)
Fixpoint last_sep (l : list Z) (i : nat) : option nat :=
  match l with
  | [] => None
  | c :: r => match last_sep r (S i) with Some p => Some p | None => if (c =? 47) || (c =? 92) then Some i else None end
  end.
Definition getBaseName (name : list Z) : list Z :=
  match last_sep name 0 with None => name | Some pos => skipn (pos + 1) name end.
