(** Model of CsvReader and CsvWriter of include/cybozu/csv.hpp: the reader and writer of CsvModel on a std::ifstream or a std::ofstream
    of the object's own.  The files are a map from names to contents. *)
Require Import Verif.Common Verif.StreamModel Verif.CsvModel.

Definition files := list Z -> option (list Z).
Definition store (fs : files) (name data : list Z) : files := fun n => if list_eq_dec Z.eq_dec n name then Some data else fs n.

(** what std::filebuf does with the bytes of one call of ofstream::write: keep them in its buffer, hand the buffer and them to the
    system, or do that and have the system take only the first k bytes (disk full, quota, I/O error) *)
Inductive how := Keep | Send | Fail (k : nat).
(** a std::ofstream: is it good (opened, no error so far), the bytes in its buffer.  After an error the buffer is dropped: what the
    library does with it then is not modelled, and no theorem speaks of the contents of the file after an error. *)
Record ofs := mk_ofs { o_good : bool; o_buf : list Z }.
Definition content (fs : files) (name : list Z) : list Z := match fs name with Some d => d | None => [] end.
(** std::ofstream(name, std::ios::binary): a file that can be opened is emptied or made *)
Definition ofs_open (fs : files) (name : list Z) (can : bool) : files * ofs :=
  if can then (store fs name [], mk_ofs true []) else (fs, mk_ofs false []).
(** handing bytes to the system *)
Definition send (fs : files) (name d : list Z) (h : how) : bool * files * list Z :=
  match h with
  | Keep => (true, fs, d)
  | Send => (true, store fs name (content fs name ++ d), [])
  | Fail k => (false, store fs name (content fs name ++ firstn k d), [])
  end.
(** os.write(buf, size): nothing is done by a stream that is not good *)
Definition ofs_write (fs : files) (name : list Z) (o : ofs) (d : list Z) (h : how) : files * ofs :=
  if o_good o then let '(b, fs', buf) := send fs name (o_buf o ++ d) h in (fs', mk_ofs b buf) else (fs, o).
(** the destructor of std::ofstream: the rest of the buffer goes out, an error is not reported; [h] is not Keep *)
Definition ofs_close (fs : files) (name : list Z) (o : ofs) (h : how) : files :=
  if o_good o then match o_buf o with [] => fs | d => snd (fst (send fs name d match h with Keep => Send | h => h end)) end else fs.

(** csv.hpp:246-247, 274-275 the members of CsvWriter and of the CsvWriterT in it *)
Record cwriter := mk_cw { w_name : list Z; w_ofs : ofs; w_sep : Z }.
(** csv.hpp:277-281 CsvWriter, 192-199 CsvWriterT.  ofs_ is made first and destroyed if csv_ cannot be made; whether it was opened is
    not looked at *)
Definition CsvWriter (fs : files) (name : list Z) (sep : Z) (can : bool) : res cwriter * files :=
  let '(fs, o) := ofs_open fs name can in
  if isValidSeparator sep then (Ok (mk_cw name o sep), fs) else (Exn, ofs_close fs name o Send).
(** csv.hpp:206-219: the calls of writeToStream (242-245) *)
Fixpoint pieces (sep : Z) (isFirst : bool) (row : list (list Z)) : list (list Z) :=
  match row with
  | [] => [[13; 10]]
  | f :: t => (if isFirst then [] else [[sep]]) ++ csv_field f :: pieces sep false t
  end.
(** stream.hpp:66-70 writeSub throws if the stream is not good after the call.  One decision for each call; none left: Keep *)
Fixpoint put_pieces (fs : files) (w : cwriter) (l : list (list Z)) (hs : list how) : res unit * files * cwriter * list how :=
  match l with
  | [] => (Ok tt, fs, w, hs)
  | d :: l =>
    let '(h, hs) := match hs with [] => (Keep, []) | h :: hs => (h, hs) end in
    let '(fs, o) := ofs_write fs (w_name w) (w_ofs w) d h in
    let w := mk_cw (w_name w) o (w_sep w) in
    if o_good o then put_pieces fs w l hs else (Exn, fs, w, hs)
  end.
(** csv.hpp:287-291 write *)
Definition cw_write (fs : files) (w : cwriter) (row : list (list Z)) (hs : list how) := put_pieces fs w (pieces (w_sep w) true row) hs.
(** a caller that writes row after row, with the outcome of each call *)
Fixpoint cw_rows (fs : files) (w : cwriter) (rows : list (list (list Z))) (hs : list how) : list (res unit) * files * cwriter * list how :=
  match rows with
  | [] => ([], fs, w, hs)
  | row :: rows =>
    let '(r, fs, w, hs) := cw_write fs w row hs in
    let '(rs, fs, w, hs) := cw_rows fs w rows hs in (r :: rs, fs, w, hs)
  end.
(** the implicit destructor *)
Definition cw_delete (fs : files) (w : cwriter) (h : how) : files := ofs_close fs (w_name w) (w_ofs w) h.

(** csv.hpp:28 MAX_LINE_SIZE of CsvReader *)
Definition MAX_LINE_SIZE := 10 * 1024 * 1024.
(** csv.hpp:254-258 CsvReader: a stream that was not opened is not noticed, its read (stream.hpp:40-54) gives 0 bytes *)
Definition CsvReader (fs : files) (name : list Z) (sep : Z) (can : bool) (sched : list Z) : res csv_reader :=
  csv_open MAX_LINE_SIZE (mk_is (match fs name with Some d => if can then d else [] | None => [] end) sched) sep.
