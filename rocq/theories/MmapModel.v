(** Model of include/cybozu/mmap.hpp: files mapped into memory, both branches.  The results of the system calls are inputs; the model
    keeps the descriptors, handles and mappings that the process has, and giving one back that it does not have is UB.
    Not modelled: the contents of the mapping (the kernel's part), the text of the exceptions. *)
Require Import Verif.Common.

(** what the process has: descriptors (handles of files and of file mappings on Windows), mappings (address, length) *)
Record proc := mk_proc { r_fd : list Z; r_map : list (Z * Z) }.
Definition has (k : Z) (l : list Z) : bool := existsb (Z.eqb k) l.
Definition same (a b : Z * Z) : bool := (fst a =? fst b) && (snd a =? snd b).
Definition opened (p : proc) (fd : Z) : proc := mk_proc (fd :: r_fd p) (r_map p).
Definition close (p : proc) (fd : Z) : res proc :=
  if has fd (r_fd p) then Ok (mk_proc (remove Z.eq_dec fd (r_fd p)) (r_map p)) else UB.
Definition mapped (p : proc) (a len : Z) : proc := mk_proc (r_fd p) ((a, len) :: r_map p).
Definition munmap (p : proc) (a len : Z) : res proc :=
  if existsb (same (a, len)) (r_map p) then Ok (mk_proc (r_fd p) (filter (fun x => negb (same (a, len) x)) (r_map p))) else UB.

(** *** POSIX.  The members map_ and size_; MAP_FAILED is -1 *)
Record mm := mk_mm { map_ : Z; size_ : Z }.
Definition MAP_FAILED := -1.
(** the results of open, fstat (the size) and mmap (the address); None: it fails *)
Record kernel := mk_kernel { k_open : option Z; k_size : option Z; k_map : option Z }.
(** mmap.hpp:91-124 the constructor.  bits: the width of size_t, to which the uint64_t size_ is cut in the call of mmap. Exn carries no
    state, so the outcome is None if it throws. *)
Definition Mmap (bits : Z) (p : proc) (k : kernel) : res (option mm * proc) :=
  match k_open k with
  | None => Ok (None, p)
  | Some fd =>
    let p := opened p fd in
    let fail p := let! p := close p fd in Ok (None, p) in
    match k_size k with
    | None => fail p
    | Some size =>
      if size =? 0 then let! p := close p fd in Ok (Some (mk_mm MAP_FAILED size), p) else
      match k_map k with
      | None => fail p
      | Some a => let p := mapped p a (size mod 2 ^ bits) in let! p := close p fd in Ok (Some (mk_mm a size), p)
      end
    end
  end.
(** mmap.hpp:126-135 the destructor *)
Definition Mmap_del (bits : Z) (p : proc) (m : mm) : res proc :=
  if negb (map_ m =? MAP_FAILED) then munmap p (map_ m) (size_ m mod 2 ^ bits) else Ok p.

(** *** Windows.  INVALID_HANDLE_VALUE is -1; NULL is 0 *)
Record wmm := mk_wmm { w_map : Z; w_hFile : Z; w_hMap : Z; w_size : Z }.
Definition INVALID := -1.
Record wkernel := mk_wkernel { wk_file : option Z; wk_size : option Z; wk_hmap : option Z; wk_view : option Z }.
(** mmap.hpp:70-89 the constructors, mmap.hpp:32-65 subOpen *)
Definition WMmap (p : proc) (k : wkernel) : res (option wmm * proc) :=
  let fail p hMap hFile :=
    let! p := if negb (hMap =? 0) then close p hMap else Ok p in
    let! p := if negb (hFile =? INVALID) then close p hFile else Ok p in
    Ok (None, p) in
  match wk_file k with
  | None => fail p 0 INVALID
  | Some hFile =>
    let p := opened p hFile in
    match wk_size k with
    | None => fail p 0 hFile
    | Some size =>
      if size =? 0 then let! p := close p hFile in Ok (Some (mk_wmm 0 INVALID 0 size), p) else
      match wk_hmap k with
      | None => fail p 0 hFile
      | Some hMap =>
        let p := opened p hMap in
        match wk_view k with
        | None => fail p hMap hFile
        | Some a => Ok (Some (mk_wmm a hFile hMap size), mapped p a size)
        end
      end
    end
  end.
(** mmap.hpp:126-131 *)
Definition WMmap_del (p : proc) (m : wmm) : res proc :=
  let! p := if negb (w_map m =? 0) then munmap p (w_map m) (w_size m) else Ok p in
  let! p := if negb (w_hMap m =? 0) then close p (w_hMap m) else Ok p in
  if negb (w_hFile m =? INVALID) then close p (w_hFile m) else Ok p.

(** histories: objects are made and destroyed (they cannot be copied) *)
Inductive mop (K : Type) := MNew (o : Z) (k : K) | MDel (o : Z).
Arguments MNew {K} o k.
Arguments MDel {K} o.
Section History.
Variables (K M : Type) (make : proc -> K -> res (option M * proc)) (del : proc -> M -> res proc).
Fixpoint mrun (p : proc) (objs : list (Z * M)) (l : list (mop K)) : res (proc * list (Z * M)) :=
  match l with
  | [] => Ok (p, objs)
  | MNew o k :: r => let! (m, p) := make p k in mrun p (match m with Some m => (o, m) :: objs | None => objs end) r
  | MDel o :: r =>
    match find (fun x => fst x =? o) objs with
    | Some (_, m) => let! p := del p m in mrun p (filter (fun x => negb (fst x =? o)) objs) r
    | None => UB
    end
  end.
End History.
Arguments mrun {K M} make del p objs l.
