(** Model of sample/fmindex_smpl.cpp, the command that makes an FM-index of a file, searches in it and recovers the file (without
    USE_UTF32: FMindex is FMindexT<uint8_t>, String is std::string).  The files are a map from names to contents; what goes to stderr and
    the measured times are not modelled. *)
Require Import Verif.Common Verif.Text Verif.StreamModel Verif.HashModel Verif.WaveletModel Verif.FmModel Verif.SaisProps Verif.CsvFileModel.

(** what is printed on stdout: "query key", a line of numbers, "hash=..." in hexadecimal, "ERR ..." and the text of usage *)
Inductive line := LQuery (key : list Z) | LSet (s : list Z) | LHash (h : Z) | LErr | LUsage.
(** exit status, stdout, files; UB and Fuel (a loop that does not end) are outcomes of their own *)
Definition done : Type := res (Z * list line * files).

(** std::isspace in the C locale *)
Definition is_space (c : Z) : bool := (c =? 32) || ((9 <=? c) && (c <=? 13)).
(** std::ifstream >> std::string: leading spaces are dropped, the word ends before the next space or at the end of the file; None: no word *)
Fixpoint skipws (s : list Z) : list Z := match s with c :: r => if is_space c then skipws r else s | [] => [] end.
Fixpoint span (s : list Z) : list Z * list Z := match s with c :: r => if is_space c then ([], s) else let '(w, rest) := span r in (c :: w, rest) | [] => ([], []) end.
Definition get_word (s : list Z) : option (list Z * list Z) := match span (skipws s) with ([], _) => None | (w, rest) => Some (w, rest) end.

(** std::set<int>::insert: increasing, nothing twice *)
Fixpoint set_insert (x : Z) (s : list Z) : list Z :=
  match s with
  | [] => [x]
  | y :: r => if x <? y then x :: s else if y <? x then y :: set_insert x r else s
  end.
(** conversion of size_t to int *)
Definition to_int (x : Z) : Z := (x + 2 ^ 31) mod 2 ^ 32 - 2 ^ 31.

(** std::string::find(key, p) *)
Fixpoint begins (key s : list Z) : bool := match key, s with [], _ => true | k :: key, c :: s => (k =? c) && begins key s | _, [] => false end.
Fixpoint find_from (key s : list Z) (q : Z) : option Z :=
  if begins key s then Some q else match s with [] => None | _ :: s => find_from key s (q + 1) end.
Definition find (text key : list Z) (p : Z) : option Z := if zlen text <? p then None else find_from key (skipn (Z.to_nat p) text) p.

Section Sample.
Variables (x64 : bool) (sort8 : (Z -> Z -> bool) -> list Z -> list Z) (sort16 : list (Z * (Z * Z)) -> list (Z * (Z * Z))) (place : Z * (Z * Z) -> list (Z * (Z * Z)) -> nat) (junk : list Z).
(** atoi of the C library, which names can be opened for writing, how the reads of the index come in pieces, bound of the loops of convertPosition *)
Variables (c_atoi : list Z -> Z) (can : list Z -> bool) (sched : list Z) (fuel : nat).

(** an std::ifstream that could not be opened has nothing to read *)
Definition readable (fs : files) (name : list Z) : list Z := content fs name.

(** fmindex_smpl.cpp:41-48: the positions of one key *)
Fixpoint simple_loop (n : nat) (text key : list Z) (p : Z) (set : list Z) : res (list Z) :=
  match n with
  | O => Fuel
  | S n => match find text key p with None => Ok set | Some q => simple_loop n text key (q + 1) (set_insert (to_int q) set) end
  end.
(** fmindex_smpl.cpp:100-106 *)
Fixpoint pos_loop (n : nat) (m : fmi) (b e : Z) (set : list Z) : res (list Z) :=
  if b =? e then Ok set else
  match n with
  | O => Fuel
  | S n => let! p := fm_convert x64 false fuel m b in pos_loop n m (b + 1) e (set_insert (to_int p) set)
  end.
(** fmindex_smpl.cpp:94-107 *)
Definition index_positions (m : fmi) (key : list Z) : res (list Z) :=
  let! r := fm_getRange x64 false false m key in
  match r with None => Ok [] | Some (b, e) => pos_loop (Z.to_nat (e - b)) m b e [] end.
(** fmindex_smpl.cpp:36-55 and 87-114: the loop over the words of the query file.  [run] is the body that makes the set; an exception
    ends the program with the lines printed so far *)
Fixpoint queries (n : nat) (run : list Z -> res (list Z)) (putHash : bool) (qs : list Z) (hash : Z) (out : list line) : res (bool * list line) :=
  match n with
  | O => Fuel
  | S n =>
    match get_word qs with
    | None => Ok (true, out ++ if putHash then [LHash hash] else [])
    | Some (key, qs) =>
      let out := out ++ if putHash then [] else [LQuery key] in
      match run key with
      | Ok set => if putHash then queries n run putHash qs (hash64 set hash) out else queries n run putHash qs hash (out ++ [LSet set])
      | Exn => Ok (false, out)
      | UB => UB
      | Fuel => Fuel
      end
    end
  end.
(** fmindex_smpl.cpp:227-230: the handler of main *)
Definition finish (r : res (bool * list line)) (fs : files) : done :=
  match r with
  | Ok (true, out) => Ok (0, out, fs)
  | Ok (false, out) => Ok (1, out ++ [LErr], fs)
  | Exn => Ok (1, [LErr], fs)
  | UB => UB
  | Fuel => Fuel
  end.
(** fmindex_smpl.cpp:28-59 simpleSearch; mmap.hpp:91-124: a file that cannot be opened is an exception *)
Definition simpleSearch (fs : files) (inName queryFile : list Z) (putHash : bool) : done :=
  match fs inName with
  | None => finish Exn fs
  | Some text =>
    let qs := readable fs queryFile in
    finish (queries (S (length qs)) (fun key => simple_loop (length text + 2) text key 0 []) putHash qs 0 []) fs
  end.
(** fmindex_smpl.cpp:78-123 search *)
Definition search (fs : files) (inName queryFile : list Z) (putHash : bool) : done :=
  match fm_load false false sort16 place (fm_new false) (mk_is (readable fs inName) sched) with
  | Ok (f, _) => let qs := readable fs queryFile in finish (queries (S (length qs)) (index_positions f) putHash qs 0 []) fs
  | Exn => finish Exn fs
  | UB => UB
  | Fuel => Fuel
  end.
(** fmindex_smpl.cpp:61-76 recover; whether the output file could be opened is not looked at *)
Definition recover (fs : files) (inName outName : list Z) : done :=
  match fm_load false false sort16 place (fm_new false) (mk_is (readable fs inName) sched) with
  | Ok (f, _) =>
    match fm_prev x64 false false f 0 (Z.to_nat ((wm_size (m_wm f) - 1) mod 2 ^ 64)) [] with
    | Ok str => finish (Ok (true, [])) (if can outName then store fs outName str else fs)
    | Exn => finish Exn fs
    | UB => UB
    | Fuel => Fuel
    end
  | Exn => finish Exn fs
  | UB => UB
  | Fuel => Fuel
  end.
(** fmindex_smpl.cpp:125-141 create; save throws at its first write if the output could not be opened (stream.hpp:66-70).  What is in
    the file after an exception in the middle of save is not modelled further than that it was emptied *)
Definition create (fs : files) (inName outName : list Z) (skip : Z) : done :=
  match fs inName with
  | None => finish Exn fs
  | Some text =>
    match fm_init x64 false false repo_sais sort8 sort16 place junk (fm_new false) text skip with
    | Ok f =>
      if can outName then
        match fm_save false place f with
        | Ok data => finish (Ok (true, [])) (store fs outName data)
        | Exn => finish Exn (store fs outName [])
        | UB => UB
        | Fuel => Fuel
        end
      else finish Exn fs
    | Exn => finish Exn fs
    | UB => UB
    | Fuel => Fuel
    end
  end.

(** fmindex_smpl.cpp:168-173: mode is one of four strings *)
Inductive mode := MCreate | MSearch | MRecover | MSimple.
Record opts := mk_opts { o_name1 : list Z; o_name2 : list Z; o_mode : option mode; o_skip : Z; o_hash : bool }.
Definition eqs (a b : list Z) : bool := if list_eq_dec Z.eq_dec a b then true else false.
Definition nil (a : list Z) : bool := match a with [] => true | _ => false end.
Definition dash (a : list Z) : bool := match a with c :: _ => c =? 45 | [] => false end.
(** fmindex_smpl.cpp:175-208; None: usage().  -time only adds to stderr *)
Fixpoint parse (argv : list (list Z)) (o : opts) : option opts :=
  match argv with
  | [] => Some o
  | a :: r =>
    let set_mode m := mk_opts (o_name1 o) (o_name2 o) (Some m) (o_skip o) (o_hash o) in
    if eqs a (str "-c") then parse r (set_mode MCreate)
    else if eqs a (str "-s") then parse r (set_mode MSearch)
    else if eqs a (str "-r") then parse r (set_mode MRecover)
    else if eqs a (str "-ss") then parse r (set_mode MSimple)
    else
      let rest :=
        if eqs a (str "-hash") then parse r (mk_opts (o_name1 o) (o_name2 o) (o_mode o) (o_skip o) true)
        else if eqs a (str "-time") then parse r o
        else if negb (dash a) && nil (o_name1 o) then parse r (mk_opts a (o_name2 o) (o_mode o) (o_skip o) (o_hash o))
        else if negb (dash a) && nil (o_name2 o) then parse r (mk_opts (o_name1 o) a (o_mode o) (o_skip o) (o_hash o))
        else None in
      match r with
      | x :: r' => if eqs a (str "-skip") then parse r' (mk_opts (o_name1 o) (o_name2 o) (o_mode o) (c_atoi x) (o_hash o)) else rest
      | [] => rest
      end
  end.
(** fmindex_smpl.cpp:164-230 main; usage (143-162) ends with exit(1) *)
Definition main (argv : list (list Z)) (fs : files) : done :=
  let usage := Ok (1, [LUsage], fs) in
  match parse argv (mk_opts [] [] None 8 false) with
  | None => usage
  | Some o =>
    if nil (o_name1 o) || nil (o_name2 o) then usage else
    match o_mode o with
    | None => usage
    | Some MCreate => create fs (o_name1 o) (o_name2 o) (o_skip o)
    | Some MSearch => search fs (o_name1 o) (o_name2 o) (o_hash o)
    | Some MRecover => recover fs (o_name1 o) (o_name2 o)
    | Some MSimple => simpleSearch fs (o_name1 o) (o_name2 o) (o_hash o)
    end
  end.
End Sample.
